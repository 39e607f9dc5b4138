(** The loops of jmjTp (sequential.py:149-211) in the storage model. *)
From Coq Require Import String Ascii List Arith ZArith Lia Bool FinFun.
From Verif Require Import Scalar Tensor Conv Abstract Simple LinearLayer ConvLayer PoolLayer Module.
From Verif Require Import TensorLemmas OpLemmas EinsumLemmas Storage StorageBase StorageFwd StorageLoops StorageSum.
Import ListNotations.
Local Open Scope nat_scope.
Local Open Scope list_scope.

Section StorageJmj.
  Context {K} `{CR : CRing K}.
  Notation T := (tensor K).
  Notation mem := (mem K).
  Implicit Types g : mem.
  Notation CallV := (Call Rv (fun v => v)).

  Definition nolist (v : hvalue) : Prop := forall l, v <> HL l.
  Definition hmethod := module K -> mem -> hst -> ref -> option ref -> hvalue -> wrt -> bool -> bool -> bool
                        -> mem * hst * res hvalue.
  Definition vmethod := module K -> st K -> T -> option T -> value K -> wrt -> bool -> bool -> bool
                        -> st K * res (value K).
  Definition jspec (f : hmethod) (vf : vmethod) (m : module K) : Prop :=
    forall g s vs x vx val vval a va w fd td db g' s' r, Rs g s vs -> Rr g x vx -> Ro g val vval -> Rv g a va ->
      f m g s x val a w fd td db = (g', s', r) ->
      CallV g s x a w g' s' r (vf m vs vx vval va w fd td db) /\
      (forall q, r = Ok q -> nolist a \/ w <> Input -> nolist q).

  Variable f : hmethod. Variable vf : vmethod.

  Lemma seq_jmjTp_in_ok hooks fm vfm ms : Forall (jspec f vf) ms ->
    forall g ks vks k v vv fd td db g' ks' r, Rk g ks vks -> Rf g fm vfm -> Rv g v vv -> v <> HN ->
    hseq_jmjTp_in f hooks fm ms g ks k v fd td db = (g', ks', r) ->
    keeps g g' /\ Rk g' ks' (fst (seq_jmjTp_in vf hooks vfm ms vks k vv fd td db)) /\
    RR (Rv g') r (snd (seq_jmjTp_in vf hooks vfm ms vks k vv fd td db)) /\
    grows g g' (flat_map locs ks ++ map rl fm) (flat_map locs ks') /\
    (forall q, r = Ok q -> q <> HN /\ outv g v Input g' (flat_map locs ks' ++ map rl fm) q /\ (nolist v -> nolist q)).
  Proof.
    induction 1 as [|m ms Hm Hms IH]; intros g ks vks k v vv fd td db g' ks' r Rks Rfm Rv Nv;
      cbn [hseq_jmjTp_in seq_jmjTp_in].
    - injection 1 as <- <- <-. split; [apply keeps_refl|]. split; [apply Rk_nil|]. split; [exact Rv|].
      split; [intros l []|]. intros q [= <-]. split; auto. split; [now apply outv_same|auto].
    - pose proof (locs_split ks) as LS.
      destruct (Rk_split _ _ _ Rks) as [Rk0 Rks0].
      destruct (hkid_split ks) as [s ks0]. destruct (kid_split vks) as [vs vks0]. cbn [fst snd] in *.
      pose proof (hfmap2_ok g hooks fm vfm k Rfm) as F2.
      destruct (hfmap2 hooks fm k) as [[x y]|e], (fmap2 hooks vfm k) as [[vx vy]|e']; cbn in F2; try tauto.
      2: { injection 1 as <- <- <-. cbn [fst snd]. split; [apply keeps_refl|]. split; [now apply Rk_cons|].
           split; [exact F2|]. split; [|discriminate].
           intros l Hl. cbn [flat_map] in Hl. left. rewrite in_app_iff, <- LS. apply in_app_or in Hl. tauto. }
      destruct F2 as (Rx & Ry & Ix & Iy).
      destruct (f m g s x (Some y) v Input _ _ db) as [[g1 s1] r1] eqn:E1.
      destruct (Hm _ _ _ _ _ (Some y) (Some vy) _ _ _ _ _ _ _ _ _ Rk0 Rx Ry Rv E1) as [(K1 & Rs1 & Rr1 & G1 & O1) NL1].
      destruct (vf m vs vx (Some vy) vv Input _ _ db) as [vs1 vr1]. cbn [fst snd] in *.
      pose proof (k_len _ _ _ K1) as Le1.
      assert (G1' : grows g g1 (flat_map locs ks ++ map rl fm) (flat_map locs (s1 :: ks0))).
      { intros l Hl. cbn [flat_map] in Hl. rewrite in_app_iff, <- LS. apply in_app_or in Hl as [Hl|Hl]; [|tauto].
        apply G1 in Hl as [Hl|]; [|auto]. rewrite in_app_iff in Hl. destruct Hl as [|[<-|[]]]; tauto. }
      destruct r1 as [v1|e], vr1 as [vv1|e']; cbn in Rr1; try tauto.
      2: { injection 1 as <- <- <-. cbn [fst snd]. split; [auto|].
           split; [apply Rk_cons; auto; exact (keeps_Rk _ _ _ _ K1 Rks0)|].
           split; [exact Rr1|]. split; [exact G1'|discriminate]. }
      destruct (O1 _ eq_refl) as [Nn1 O1']. specialize (Nn1 eq_refl). specialize (NL1 _ eq_refl).
      destruct (hseq_jmjTp_in f hooks fm ms g1 ks0 (S k) v1 fd td db) as [[g2 ks2] r2] eqn:E2.
      injection 1 as <- <- <-.
      destruct (IH _ _ _ _ _ _ _ _ _ _ _ _ (keeps_Rk _ _ _ _ K1 Rks0) (keeps_Rf _ _ _ _ K1 Rfm) Rr1 Nn1 E2)
        as (K2 & Rk2 & Rr2 & G2 & O2).
      destruct (seq_jmjTp_in vf hooks vfm ms vks0 (S k) vv1 fd td db) as [vks2 vr2]. cbn [fst snd] in *.
      pose proof (k_len _ _ _ K2) as Le2.
      split; [eapply keeps_trans; eauto|]. split; [apply Rk_cons; auto; exact (keeps_Rs _ _ _ _ K2 Rs1)|].
      split; [auto|]. split.
      + intros l Hl. cbn [flat_map] in Hl. rewrite in_app_iff in Hl. destruct Hl as [Hl|Hl].
        * assert (Hl' : In l (flat_map locs (s1 :: ks0))) by (cbn; rewrite in_app_iff; auto).
          apply G1' in Hl' as [|]; [auto|right; lia].
        * apply G2 in Hl as [Hl|]; [|right; lia]. rewrite in_app_iff in Hl. left. rewrite in_app_iff, <- LS. tauto.
      + intros q Hq. destruct (O2 q Hq) as (Nq & Oq & NLq). split; [auto|]. split; [|intros; apply NLq, NL1; auto].
        assert (B1 : forall l, In l (locs s1) -> l < len g1) by apply Rs1.
        assert (B2 : forall l, In l (map rl fm) -> l < len g) by apply Rfm.
        assert (B3 : forall l, In l (flat_map locs ks0) -> l < len g) by apply Rks0.
        eapply outv_trans; try exact O1'; try exact Oq; auto; try exact K1; try exact K2.
        * intros l Hl. cbn [flat_map] in Hl. rewrite !in_app_iff in Hl. rewrite in_app_iff.
          split; intros.
          -- destruct Hl as [[Hl|]|]; auto. apply B1 in Hl. lia.
          -- destruct Hl as [[Hl|Hl]|Hl]; auto.
             ++ apply G2 in Hl as [Hl|]; [|lia]. apply in_app_or in Hl as [Hl|Hl]; [apply B3 in Hl|apply B2 in Hl]; lia.
             ++ apply B2 in Hl. lia.
        * apply Rr1.
  Qed.

  Lemma hseq_blocks_ok ms g mt vmt p fd : Rr g mt vmt ->
    RR (Rvs g) (hseq_blocks ms mt p fd) (seq_blocks ms vmt p fd) /\
    (forall bs, hseq_blocks ms mt p fd = Ok bs -> forall l, In l (flat_map vlocs bs) -> l = rl mt).
  Proof.
    intros R. revert p. induction ms as [|m ms IH]; intros p; cbn.
    - split; [split; cbn; tauto|]. intros bs [= <-]. cbn. tauto.
    - destruct (Nat.eqb (n_params m) 0); auto.
      destruct (hslice_ok g 1 p (p + n_params m) mt vmt R) as [R1 L1].
      destruct (hslice 1 p (p + n_params m) mt) as [b|e], (slice n0 1 p (p + n_params m) vmt) as [vb|e'];
        cbn in R1; try tauto; cbn [bind]; [|split; [exact R1|discriminate]].
      specialize (L1 _ eq_refl).
      assert (X : exists rb rvb, (if fd then Ok b else hslice 2 p (p + n_params m) b) = rb /\
                (if fd then Ok vb else slice n0 2 p (p + n_params m) vb) = rvb /\ RR (Rr g) rb rvb /\
                (forall q, rb = Ok q -> rl q = rl mt)).
      { destruct fd.
        - do 2 eexists. split; [reflexivity|]. split; [reflexivity|]. split; [exact R1|]. intros q [= <-]. auto.
        - destruct (hslice_ok g 2 p (p + n_params m) b vb R1) as [R2 L2].
          do 2 eexists. split; [reflexivity|]. split; [reflexivity|]. split; [exact R2|].
          intros q Hq. rewrite <- L1. auto. }
      destruct X as (rb & rvb & -> & -> & R2 & L2).
      destruct rb as [b2|e], rvb as [vb2|e']; cbn in R2; try tauto; cbn [bind]; [|split; [exact R2|discriminate]].
      specialize (L2 _ eq_refl). destruct (IH (p + n_params m)) as [Ri Li].
      destruct (hseq_blocks ms mt (p + n_params m) fd) as [bs|e], (seq_blocks ms vmt (p + n_params m) fd) as [vbs|e'];
        cbn [RR] in Ri; try contradiction; cbn [bind]; [|split; [exact Ri|discriminate]].
      destruct Ri as [<- Bi]. split.
      + split; cbn.
        * f_equal. now destruct R2 as [<- _].
        * intros l [<-|Hl]; [apply R2|auto].
      + intros q [= <-] l. cbn. intros [<-|Hl]; [auto|]. eapply Li; eauto.
  Qed.

  Lemma Rv_opt g q vq : Rv g q vq -> nolist q -> exists o vo, q = hof_opt o /\ vq = of_opt vo /\ Ro g o vo.
  Proof.
    intros [<- B] N. destruct q as [|r|l]; [|  |destruct (N l eq_refl)].
    - exists None, None. cbn. auto.
    - exists (Some r), (Some (rd g r)). cbn. split; auto. split; auto. split; auto. apply B. now left.
  Qed.
  Lemma Ro_Rv g o vo : Ro g o vo -> Rv g (hof_opt o) (of_opt vo).
  Proof.
    destruct o as [r|], vo as [t|]; cbn; try tauto.
    - intros [<- L]. split; [reflexivity|]. cbn. intros l [<-|[]]. auto.
    - intros _. split; [reflexivity|]. cbn. tauto.
  Qed.

  Lemma seq_jmjTp_w_ok hooks fm vfm ms : Forall (jspec f vf) ms ->
    forall g ks vks k bs vbs acc vacc fd td db g' ks' r,
    Rk g ks vks -> Rf g fm vfm -> Rvs g bs vbs -> Ro g acc vacc ->
    sumok g g acc acc (flat_map locs ks ++ map rl fm ++ flat_map vlocs bs) ->
    hseq_jmjTp_w f hooks fm ms g ks k bs (hof_opt acc) fd td db = (g', ks', r) ->
    keepsx (option_map rl acc) g g' /\
    Rk g' ks' (fst (seq_jmjTp_w vf hooks vfm ms vks k vbs (of_opt vacc) fd td db)) /\
    RR (Rv g') r (snd (seq_jmjTp_w vf hooks vfm ms vks k vbs (of_opt vacc) fd td db)) /\
    grows g g' (flat_map locs ks ++ map rl fm) (flat_map locs ks') /\
    (forall q, r = Ok q -> exists o, q = hof_opt o /\ sumok g g' acc o (flat_map locs ks' ++ map rl fm)).
  Proof.
    induction 1 as [|m ms Hm Hms IH]; intros g ks vks k bs vbs acc vacc fd td db g' ks' r Rks Rfm Rbs Ra Sa;
      cbn [hseq_jmjTp_w seq_jmjTp_w].
    - injection 1 as <- <- <-. split; [apply keeps_refl|]. split; [apply Rk_nil|].
      split; [apply Ro_Rv, Ra|]. split; [intros l []|]. intros q [= <-]. exists acc. split; [auto|].
      eapply sumok_keeps; [exact Sa|apply (keeps_refl None)|discriminate|].
      intros l Hl. cbn in Hl. left. rewrite !in_app_iff. auto.
    - pose proof (locs_split ks) as LS.
      destruct (Rk_split _ _ _ Rks) as [Rk0 Rks0].
      destruct (hkid_split ks) as [s ks0]. destruct (kid_split vks) as [vs vks0]. cbn [fst snd] in *.
      cbv zeta. set (td' := match ms with [] => td | _ => db end).
      assert (Bs : forall l, In l (locs s) -> l < len g) by apply Rk0.
      assert (Bks : forall l, In l (flat_map locs ks0) -> l < len g) by apply Rks0.
      assert (Bf : forall l, In l (map rl fm) -> l < len g) by apply Rfm.
      assert (Bb : forall l, In l (flat_map vlocs bs) -> l < len g) by apply Rbs.
      set (base := flat_map locs ks0 ++ map rl fm ++ flat_map vlocs bs).
      assert (Bbase : forall l, In l base -> l < len g).
      { intros l Hl. unfold base in Hl. rewrite !in_app_iff in Hl. destruct Hl as [|[|]]; auto. }
      assert (S0 : sumok g g acc acc (locs s ++ base)).
      { eapply sumok_keeps; [exact Sa|apply (keeps_refl None)|discriminate|]. intros l Hl. left.
        unfold base in Hl. rewrite !in_app_iff in *. rewrite <- LS. tauto. }
      assert (Gfin : forall g9 s9, len g <= len g9 -> grows g g9 (locs s ++ map rl fm) (locs s9) ->
                grows g g9 (flat_map locs ks ++ map rl fm) (flat_map locs (s9 :: ks0))).
      { intros g9 s9 L9 G9 l Hl. cbn [flat_map] in Hl. rewrite in_app_iff in Hl. rewrite in_app_iff, <- LS.
        destruct Hl as [Hl|]; [|tauto]. apply G9 in Hl as [Hl|]; [|auto]. rewrite in_app_iff in Hl. tauto. }
      (* the product with the running sum *)
      assert (C2 : exists g2 s2 r2 vs2 vr2,
        match hof_opt acc with
        | HN => (g, s, Ok HN)
        | _ => match hfmap2 hooks fm k with
               | Raise e => (g, s, Raise e)
               | Ok (x, y) => f m g s x (Some y) (hof_opt acc) Input db td' db
               end
        end = (g2, s2, r2) /\
        match of_opt vacc with
        | VNone => (vs, Ok VNone)
        | _ => match fmap2 hooks vfm k with
               | Raise e => (vs, Raise e)
               | Ok (x, y) => vf m vs x (Some y) (of_opt vacc) Input db td' db
               end
        end = (vs2, vr2) /\
        keeps g g2 /\ Rs g2 s2 vs2 /\ grows g g2 (locs s ++ map rl fm) (locs s2) /\
        ((exists acc2 vacc2, r2 = Ok (hof_opt acc2) /\ vr2 = Ok (of_opt vacc2) /\ Ro g2 acc2 vacc2 /\
           sumok g g2 acc acc2 (locs s2 ++ base)) \/ exists e, r2 = Raise e /\ vr2 = Raise e)).
      { destruct acc as [a|], vacc as [va|]; cbn in Ra; try tauto; cbn [hof_opt of_opt].
        - pose proof (hfmap2_ok g hooks fm vfm k Rfm) as F2.
          destruct (hfmap2 hooks fm k) as [[x y]|e], (fmap2 hooks vfm k) as [[vx vy]|e']; cbn in F2; try tauto.
          + destruct F2 as (Rx & Ry & Ix & Iy).
            destruct (f m g s x (Some y) (HT a) Input db td' db) as [[g2 s2] r2] eqn:E2.
            destruct (Hm _ _ _ _ _ (Some y) (Some vy) _ _ _ _ _ _ _ _ _ Rk0 Rx Ry (Ro_Rv _ (Some a) (Some va) Ra) E2)
              as [(K2 & Rs2 & Rr2 & G2 & O2) NL2].
            cbn [of_opt] in *. destruct (vf m vs vx (Some vy) (VT va) Input db td' db) as [vs2 vr2]. cbn [fst snd] in *.
            assert (G2' : grows g g2 (locs s ++ map rl fm) (locs s2)).
            { intros l Hl. apply G2 in Hl as [Hl|]; [|auto]. left. rewrite in_app_iff in *.
              destruct Hl as [|[<-|[]]]; auto. }
            do 5 eexists. split; [reflexivity|]. split; [reflexivity|]. split; [auto|]. split; [auto|].
            split; [exact G2'|].
            destruct r2 as [q|e], vr2 as [vq|e']; cbn in Rr2; try tauto; [left|right; exists e; now subst].
            assert (NLa : nolist (HT a)) by (intros l; discriminate).
            destruct (Rv_opt _ _ _ Rr2 (NL2 _ eq_refl (or_introl NLa)))
              as (o & vo & -> & -> & Rq).
            exists o, vo. split; [auto|]. split; [auto|]. split; [auto|]. intros b ->.
            destruct (O2 _ eq_refl) as [_ [O P]]. cbn in P. pose proof (k_len _ _ _ K2).
            destruct (S0 a eq_refl) as (Ba & Pa & Oa & Na).
            assert (Pb : proper g2 b).
            { destruct P as [|[_ [|(a0 & Ea & P)]]]; [auto|discriminate|]. injection Ea as <-. auto. }
            destruct (O (rl b)) as [[B N]|[_ [E|[]]]]; [now left| |].
            * split; [lia|]. split; [auto|]. split; [right; lia|]. rewrite in_app_iff. intros [|I]; [auto|].
              apply Bbase in I. lia.
            * rewrite <- E in *. split; [lia|]. split; [auto|]. split; [auto|].
              rewrite in_app_iff. intros [I|I]; [|apply Na, in_or_app; auto].
              apply G2' in I as [I|I]; [|lia]. apply Na. rewrite in_app_iff in *. unfold base.
              rewrite !in_app_iff. tauto.
          + do 5 eexists. split; [reflexivity|]. split; [reflexivity|]. split; [apply keeps_refl|].
            split; [exact Rk0|]. split; [intros l Hl; left; apply in_or_app; auto|]. right. exists e. now subst.
        - do 5 eexists. split; [reflexivity|]. split; [reflexivity|]. split; [apply keeps_refl|].
          split; [exact Rk0|]. split; [intros l Hl; left; apply in_or_app; auto|].
          left. exists None, None. split; [auto|]. split; [auto|]. split; [exact I|]. apply sumok_none. }
      destruct C2 as (g2 & s2 & r2 & vs2 & vr2 & -> & -> & K2 & Rs2 & G2 & C2).
      pose proof (k_len _ _ _ K2) as Le2.
      destruct C2 as [(acc2 & vacc2 & -> & -> & Ra2 & S2)|(e & -> & ->)].
      2: { injection 1 as <- <- <-. cbn [fst snd]. split; [now apply keeps_weak|].
           split; [apply Rk_cons; auto; exact (keeps_Rk _ _ _ _ K2 Rks0)|]. split; [reflexivity|].
           split; [apply Gfin; [lia|auto]|discriminate]. }
      assert (I2 : incl (flat_map locs ks0) base) by (intros l; unfold base; rewrite !in_app_iff; auto).
      assert (I3 : incl (map rl fm) base) by (intros l; unfold base; rewrite !in_app_iff; auto).
      destruct (Nat.eqb (n_params m) 0).
      + destruct (hseq_jmjTp_w f hooks fm ms g2 ks0 (S k) bs (hof_opt acc2) fd td db) as [[g5 ks5] r5] eqn:E5.
        injection 1 as <- <- <-.
        assert (S2' : sumok g2 g2 acc2 acc2 (flat_map locs ks0 ++ map rl fm ++ flat_map vlocs bs)).
        { intros a Ha. destruct (S2 a Ha) as (B & P & _ & N). split; [auto|]. split; [auto|].
          split; [left; now rewrite Ha|]. intros I. apply N. apply in_or_app. auto. }
        destruct (IH _ _ _ _ _ _ _ _ _ _ _ _ _ _ (keeps_Rk _ _ _ _ K2 Rks0) (keeps_Rf _ _ _ _ K2 Rfm)
                    (keeps_Rvs _ _ _ _ K2 Rbs) Ra2 S2' E5) as (K5 & Rk5 & Rr5 & G5 & S5).
        destruct (seq_jmjTp_w vf hooks vfm ms vks0 (S k) vbs (of_opt vacc2) fd td db) as [vks5 vr5]. cbn [fst snd] in *.
        pose proof (k_len _ _ _ K5) as Le5.
        assert (Bs2 : forall l, In l (locs s2) -> l < len g2) by apply Rs2.
        split; [|split; [|split; [auto|split]]].
        * eapply keeps_trans_new; [apply keeps_weak; exact K2|exact K5|]. intros l Hl.
          destruct acc2 as [a|]; [|discriminate]. injection Hl as <-.
          destruct (S2 a eq_refl) as (_ & _ & [O|O] & _); auto.
        * apply Rk_cons; auto. eapply Rs_mono; [exact K5| |exact Rs2].
          eapply sumok_out; [exact S2|]. intros l Hl. apply in_or_app; auto.
        * intros l Hl. cbn [flat_map] in Hl. rewrite in_app_iff in Hl. destruct Hl as [Hl|Hl].
          -- apply G2 in Hl as [Hl|]; [|right; lia]. rewrite in_app_iff, <- LS. rewrite in_app_iff in Hl. tauto.
          -- apply G5 in Hl as [Hl|]; [|right; lia]. rewrite in_app_iff in Hl. rewrite in_app_iff, <- LS. tauto.
        * intros q Hq. destruct (S5 q Hq) as (o & -> & S5'). exists o. split; [auto|].
          intros a ->. destruct (S5' a eq_refl) as (B & P & O & N). split; [auto|]. split; [auto|].
          assert (X : (Some (rl a) = option_map rl acc \/ len g <= rl a) /\ ~ In (rl a) (locs s2)).
          { destruct O as [O|O].
            - destruct acc2 as [a4|]; [|discriminate]. injection O as O.
              destruct (S2 a4 eq_refl) as (_ & _ & O' & N'). rewrite <- O in *. split; [auto|].
              intros I. apply N', in_or_app. auto.
            - split; [right; lia|]. intros I. apply Bs2 in I. lia. }
          destruct X as [X1 X2]. split; [auto|]. cbn [flat_map]. rewrite <- app_assoc, in_app_iff. tauto.
      + pose proof (hfmap2_ok g2 hooks fm vfm k (keeps_Rf _ _ _ _ K2 Rfm)) as F2.
        assert (Fail : forall e, keepsx (option_map rl acc) g g2 /\
                  Rk g2 (s2 :: ks0) (vs2 :: vks0) /\ RR (Rv g2) (Raise e) (Raise e) /\
                  grows g g2 (flat_map locs ks ++ map rl fm) (flat_map locs (s2 :: ks0)) /\
                  (forall q, Raise e = Ok q -> exists o, q = hof_opt o /\ sumok g g2 acc o (flat_map locs (s2 :: ks0) ++ map rl fm))).
        { intros e. split; [now apply keeps_weak|].
          split; [apply Rk_cons; auto; exact (keeps_Rk _ _ _ _ K2 Rks0)|]. split; [reflexivity|].
          split; [apply Gfin; [lia|auto]|discriminate]. }
        destruct (hfmap2 hooks fm k) as [[x y]|e], (fmap2 hooks vfm k) as [[vx vy]|e']; cbn in F2; try tauto; cbn [bind].
        2: { injection 1 as <- <- <-. cbn [fst snd]. rewrite F2. apply Fail. }
        destruct F2 as (Rx & Ry & Ix & Iy).
        assert (Rbs2 := keeps_Rvs _ _ _ _ K2 Rbs).
        destruct bs as [|b bs]; [|destruct vbs as [|vb vbs]]; destruct Rbs2 as [Eb Lb].
        { cbn in Eb. subst vbs. injection 1 as <- <- <-. apply Fail. }
        { discriminate Eb. }
        cbn [map] in Eb. injection Eb as Eb1 Eb2.
        assert (Rb : Rv g2 b vb). { split; [auto|]. intros l Hl. apply Lb. cbn. apply in_or_app. auto. }
        assert (Rbs' : Rvs g2 bs vbs). { split; [auto|]. intros l Hl. apply Lb. cbn. apply in_or_app. auto. }
        destruct (f m g2 s2 x (Some y) b Weight fd td' db) as [[g3 s3] r3] eqn:E3.
        destruct (Hm _ _ _ _ _ (Some y) (Some vy) _ _ _ _ _ _ _ _ _ Rs2 Rx Ry Rb E3) as [(K3 & Rs3 & Rr3 & G3 & O3) NL3].
        destruct (vf m vs2 vx (Some vy) vb Weight fd td' db) as [vs3 vr3]. cbn [fst snd] in *.
        pose proof (k_len _ _ _ K3) as Le3. pose proof (keeps_trans _ _ _ _ K2 K3) as K13.
        assert (Bs2 : forall l, In l (locs s2) -> l < len g2) by apply Rs2.
        assert (Bs3 : forall l, In l (locs s3) -> l < len g3) by apply Rs3.
        assert (Gk3 : grows g g3 (locs s ++ map rl fm) (locs s3)).
        { intros l Hl. apply G3 in Hl as [Hl|]; [|right; lia]. apply in_app_or in Hl as [Hl|[<-|[]]];
            [|left; apply in_or_app; auto]. apply G2 in Hl as [|]; [auto|right; lia]. }
        assert (S3 : sumok g g3 acc acc2 (locs s3 ++ base)).
        { eapply sumok_keeps; [exact S2|exact K3|discriminate|]. intros l Hl.
          apply in_app_or in Hl as [Hl|Hl]; [|left; apply in_or_app; auto].
          apply G3 in Hl as [Hl|]; [|right; lia]. left. rewrite in_app_iff in *.
          destruct Hl as [|[<-|[]]]; auto. }
        assert (B3 : forall l, In l (locs s3 ++ base) -> l < len g3).
        { intros l Hl. apply in_app_or in Hl as [|Hl]; auto. apply Bbase in Hl. lia. }
        destruct r3 as [q3|e], vr3 as [vq3|e']; cbn in Rr3; try tauto; cbn [bind].
        2: { injection 1 as <- <- <-. cbn [fst snd]. split; [now apply keeps_weak|].
             split; [apply Rk_cons; auto; exact (keeps_Rk _ _ _ _ K13 Rks0)|]. split; [exact Rr3|].
             split; [apply Gfin; [lia|auto]|discriminate]. }
        assert (NLw : Weight <> Input) by discriminate.
        destruct (Rv_opt _ _ _ Rr3 (NL3 _ eq_refl (or_intror NLw))) as (new & vnew & -> & -> & Rn).
        assert (HO : forall o, hto_opt (hof_opt o) = Ok o) by (intros [|]; reflexivity).
        assert (TO : forall o : option T, to_opt (of_opt o) = Ok o) by (intros [|]; reflexivity).
        rewrite !HO, !TO. cbn [bind].
        assert (S3n : sumok g g3 acc new (locs s3 ++ base)).
        { intros n ->. destruct (O3 _ eq_refl) as [_ [O P]]. cbn in P.
          destruct (O (rl n)) as [[B N]|[? _]]; [now left| |discriminate].
          split; [lia|]. split; [destruct P as [|[? _]]; [auto|discriminate]|]. split; [right; lia|].
          rewrite in_app_iff. intros [|I]; [auto|]. apply Bbase in I. lia. }
        destruct (haccumulate_ok g g3 acc acc2 vacc2 new vnew (locs s3 ++ base)) as (g4 & r4 & -> & K4 & Rr4 & S4);
          auto; [exact (keeps_Ro _ _ _ _ K3 Ra2)|lia|].
        pose proof (k_len _ _ _ K4) as Le4.
        assert (Out4 : forall L, incl L (locs s3 ++ base) -> out (option_map rl acc2) L).
        { intros L I. eapply sumok_out; eauto. }
        assert (I1 : incl (locs s3) (locs s3 ++ base)) by (intros l; rewrite in_app_iff; auto).
        assert (Ib : forall L, incl L base -> incl L (locs s3 ++ base)).
        { intros L HL l Hl. apply in_or_app. auto. }
        assert (I4 : incl (flat_map vlocs bs) base).
        { intros l. unfold base. cbn. rewrite !in_app_iff; auto. }
        assert (Rs4 : Rs g4 s3 vs3) by exact (Rs_mono _ _ _ _ _ K4 (Out4 _ I1) Rs3).
        assert (Rks4 : Rk g4 ks0 vks0)
          by exact (Rk_mono _ _ _ _ _ K4 (Out4 _ (Ib _ I2)) (keeps_Rk _ _ _ _ K13 Rks0)).
        assert (Rf4 : Rf g4 fm vfm) by exact (Rf_mono _ _ _ _ _ K4 (Out4 _ (Ib _ I3)) (keeps_Rf _ _ _ _ K13 Rfm)).
        assert (Rb4 : Rvs g4 bs vbs) by exact (Rvs_mono _ _ _ _ _ K4 (Out4 _ (Ib _ I4)) (keeps_Rvs _ _ _ _ K3 Rbs')).
        assert (K14 : keepsx (option_map rl acc) g g4).
        { eapply keeps_trans_new; [apply keeps_weak; exact K13|exact K4|]. intros l Hl.
          destruct acc2 as [a|]; [|discriminate]. injection Hl as <-.
          destruct (S3 a eq_refl) as (_ & _ & [O|O] & _); auto. }
        assert (Gk4 : grows g g4 (locs s ++ map rl fm) (locs s3)).
        { intros l Hl. apply Gk3 in Hl as [|]; [auto|right; lia]. }
        destruct r4 as [acc4|e], (accumulate vacc2 vnew) as [vacc4|e']; cbn in Rr4; try tauto.
        2: { injection 1 as <- <- <-. cbn [fst snd]. split; [exact K14|].
             split; [now apply Rk_cons|]. split; [exact Rr4|].
             split; [apply Gfin; [lia|auto]|discriminate]. }
        specialize (S4 _ eq_refl).
        destruct (hseq_jmjTp_w f hooks fm ms g4 ks0 (S k) bs (hof_opt acc4) fd td db) as [[g5 ks5] r5] eqn:E5.
        injection 1 as <- <- <-.
        assert (Bk4 : forall l, In l (locs s3) -> l < len g4) by apply Rs4.
        assert (S4' : sumok g4 g4 acc4 acc4 (flat_map locs ks0 ++ map rl fm ++ flat_map vlocs bs)).
        { intros a Ha. destruct (S4 a Ha) as (B & P & _ & N). split; [auto|]. split; [auto|].
          split; [left; now rewrite Ha|]. intros I. apply N. unfold base. cbn. rewrite !in_app_iff in *. tauto. }
        destruct (IH _ _ _ _ _ _ _ _ _ _ _ _ _ _ Rks4 Rf4 Rb4 Rr4 S4' E5) as (K5 & Rk5 & Rr5 & G5 & S5).
        destruct (seq_jmjTp_w vf hooks vfm ms vks0 (S k) vbs (of_opt vacc4) fd td db) as [vks5 vr5]. cbn [fst snd] in *.
        pose proof (k_len _ _ _ K5) as Le5.
        split; [|split; [|split; [auto|split]]].
        * eapply keeps_trans_new; [exact K14|exact K5|]. intros l Hl.
          destruct acc4 as [a|]; [|discriminate]. injection Hl as <-.
          destruct (S4 a eq_refl) as (_ & _ & [O|O] & _); auto.
        * apply Rk_cons; auto. eapply Rs_mono; [exact K5| |exact Rs4].
          eapply sumok_out; [exact S4|exact I1].
        * intros l Hl. cbn [flat_map] in Hl. rewrite in_app_iff in Hl. destruct Hl as [Hl|Hl].
          -- apply Gk4 in Hl as [Hl|]; [|right; lia]. rewrite in_app_iff, <- LS. rewrite in_app_iff in Hl. tauto.
          -- apply G5 in Hl as [Hl|]; [|right; lia]. rewrite in_app_iff in Hl. rewrite in_app_iff, <- LS. tauto.
        * intros q Hq. destruct (S5 q Hq) as (o & -> & S5'). exists o. split; [auto|].
          intros a ->. destruct (S5' a eq_refl) as (B & P & O & N). split; [auto|]. split; [auto|].
          assert (X : (Some (rl a) = option_map rl acc \/ len g <= rl a) /\ ~ In (rl a) (locs s3)).
          { destruct O as [O|O].
            - destruct acc4 as [a4|]; [|discriminate]. injection O as O.
              destruct (S4 a4 eq_refl) as (_ & _ & O' & N'). rewrite <- O in *. split; [auto|].
              intros I. apply N', I1, I.
            - split; [right; lia|]. intros I. apply Bk4 in I. lia. }
          destruct X as [X1 X2]. split; [auto|]. cbn [flat_map]. rewrite <- app_assoc, in_app_iff. tauto.
  Qed.
End StorageJmj.
