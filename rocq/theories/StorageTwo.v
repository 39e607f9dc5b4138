(** jmjTp and jTmjp in the storage model. *)
From Coq Require Import String Ascii List Arith ZArith Lia Bool FinFun.
From Verif Require Import Scalar Tensor Conv Abstract Simple LinearLayer ConvLayer PoolLayer Module.
From Verif Require Import TensorLemmas OpLemmas EinsumLemmas HooksSpec Loud.
From Verif Require Import Storage StorageBase StorageFwd StorageLoops StorageSum StorageJmj StorageLeaf StorageBack StorageForw.
Import ListNotations.
Local Open Scope nat_scope.
Local Open Scope list_scope.

Ltac bassoc :=
  unfold bind; repeat match goal with |- context [match ?r with Ok _ => _ | Raise _ => _ end] => destruct r end; reflexivity.

Section StorageTwo.
  Context {K} `{CR : CRing K}.
  Notation T := (tensor K).
  Notation mem := (mem K).
  Implicit Types g : mem.
  Notation CallO := (Call Ro hof_opt).
  Notation CallV := (Call Rv (fun v : hvalue => v)).
  Variable cg : ref -> bool.
  Notation hforward := (hforward cg).
  Notation hensure := (hensure cg).

  (** *** Steps of a method *)
  Definition Stp g (s : hst) (x : ref) g1 (s1 : hst) (vs1 : st K) : Prop :=
    keeps g g1 /\ Rs g1 s1 vs1 /\ grows g g1 (locs s ++ [rl x]) (locs s1).
  Lemma Stp_refl g s x vs : Rs g s vs -> Stp g s x g s vs.
  Proof. intros R. split; [apply keeps_refl|]. split; [auto|apply grows_refl]. Qed.
  Lemma Stp_keeps g s x g1 s1 vs1 g2 : Stp g s x g1 s1 vs1 -> keeps g1 g2 -> Stp g s x g2 s1 vs1.
  Proof.
    intros (K1 & R1 & G1) K2. pose proof (k_len _ _ _ K1). pose proof (k_len _ _ _ K2).
    split; [eapply keeps_trans; eauto|]. split; [exact (keeps_Rs _ _ _ _ K2 R1)|].
    intros l Hl. apply G1 in Hl as [|]; [auto|right; lia].
  Qed.
  Lemma Stp_kid g s x g1 s1 vs1 g2 k vk : Stp g s x g1 s1 vs1 -> keeps g1 g2 -> Rs g2 k vk ->
    grows g1 g2 (locs (h_kid s1) ++ [rl x]) (locs k) -> Stp g s x g2 (hset_kid s1 k) (set_kid vs1 vk).
  Proof.
    intros (K1 & R1 & G1) K2 R2 G2. pose proof (k_len _ _ _ K1). pose proof (k_len _ _ _ K2).
    split; [eapply keeps_trans; eauto|]. split; [exact (Rs_set _ _ _ _ _ (keeps_Rs _ _ _ _ K2 R1) R2)|].
    intros l Hl. apply (skip_grows _ _ _ _ _ K2 G2) in Hl as [Hl|]; [|right; lia].
    apply in_app_or in Hl as [Hl|Hl]; [|left; apply in_or_app; auto]. apply G1 in Hl as [|]; [auto|right; lia].
  Qed.
  Lemma Stp_back g s x g1 s1 vs1 g2 ks2 vks2 : Stp g s x g1 s1 vs1 -> keeps g1 g2 -> Rk g2 ks2 vks2 ->
    grows g1 g2 (flat_map locs (h_kids s1) ++ map rl (h_fm s1)) (flat_map locs ks2) ->
    Stp g s x g2 (HSt (h_fm s1) (h_idx s1) ks2) (St (st_fm vs1) (st_idx vs1) vks2) /\
    (forall l, In l (locs (HSt (h_fm s1) (h_idx s1) ks2)) -> In l (locs s1) \/ len g1 <= l < len g2).
  Proof.
    intros (K1 & R1 & G1) K2 Rk2 G2.
    destruct (back_state cg g g1 g2 s s1 vs1 x ks2 vks2 K1 R1 G1 K2 Rk2 G2) as (Kf & Rf & Gf & Df).
    split; [split; [auto|split; auto]|auto].
  Qed.
  Lemma Stp_raise {V VV} (RV : mem -> V -> VV -> Prop) tv g s x a w g1 s1 vs1 e e' : Stp g s x g1 s1 vs1 -> e = e' ->
    Call RV tv g s x a w g1 s1 (Raise e) (vs1, Raise e').
  Proof. intros (K1 & R1 & G1) E. now apply raise_call. Qed.
  Lemma Stp_none g s x a w g1 s1 vs1 : Stp g s x g1 s1 vs1 -> w <> Input ->
    CallV g s x a w g1 s1 (Ok HN) (vs1, Ok VNone).
  Proof.
    intros (K1 & R1 & G1) N. split; [auto|]. split; [auto|]. split; [split; [reflexivity|cbn; tauto]|]. split; [auto|].
    intros q [= <-]. split; [contradiction|apply outv_none].
  Qed.
  Lemma Stp_val g s x a w g1 s1 vs1 t p g' r : Stp g s x g1 s1 vs1 -> fresh_val g1 t = (g', r) ->
    p = (q <- t ;; Ok (VT q)) ->
    CallV g s x a w g' s1 r (vs1, p) /\ (forall q, r = Ok q -> nolist q).
  Proof.
    intros S1 E ->. unfold fresh_val in E. destruct (fresh g1 t) as [g2 r2] eqn:E2. injection E as <- <-.
    destruct (fresh_ok _ _ _ _ E2) as (K2 & R2 & O2). destruct (Stp_keeps _ _ _ _ _ _ _ S1 K2) as (K3 & R3 & G3).
    split.
    - split; [auto|]. split; [auto|]. split.
      + destruct r2 as [q|], t as [vq|]; cbn in *; auto. destruct R2 as [<- L]. split; [reflexivity|].
        cbn. intros l [<-|[]]. auto.
      + split; [auto|]. intros q Hq. destruct r2 as [q2|]; [|discriminate]. cbn in Hq. injection Hq as <-.
        split; [discriminate|]. destruct (O2 q2 eq_refl) as (E & L & P). destruct S1 as (K1 & R1 & G1).
        pose proof (k_len _ _ _ K1). split; [|auto]. cbn. intros l [<-|[]]. left. split; [lia|].
        intros I. assert (rl q2 < len g1) by now apply R1. lia.
    - intros q Hq. destruct r2; [|discriminate]. cbn in Hq. injection Hq as <-. discriminate.
  Qed.
  Lemma Call_V g s x a w g' s' r vs' vr : CallO g s x a w g' s' r (vs', vr) ->
    CallV g s x a w g' s' (q <- r ;; Ok (hof_opt q)) (vs', q <- vr ;; Ok (of_opt q)) /\
    (forall q, (q <- r ;; Ok (hof_opt q)) = Ok q -> nolist q).
  Proof.
    intros (K1 & R1 & Rr1 & G1 & O1). cbn [fst snd] in *. split.
    - split; [auto|]. split; [auto|]. split.
      + destruct r as [q|], vr as [vq|]; cbn in *; auto. now apply Ro_Rv.
      + split; [auto|]. intros q Hq. destruct r as [q1|]; [|discriminate]. cbn in Hq. injection Hq as <-. now apply O1.
    - intros q Hq. destruct r as [[q1|]|]; cbn in Hq; try discriminate; injection Hq as <-; discriminate.
  Qed.
  Lemma hto_opt_ok g a va : Rv g a va -> RR (Ro g) (hto_opt a) (to_opt va) /\
    (forall o, hto_opt a = Ok o -> a = hof_opt o).
  Proof.
    intros [<- B]. destruct a as [|t|l]; cbn; (split; [|intros o [= <-]; reflexivity || discriminate]); auto.
    split; [auto|]. apply B. now left.
  Qed.
  Lemma hto_tensor_ok g a va : Rv g a va -> RR (Rr g) (hto_tensor a) (to_tensor va).
  Proof. intros [<- B]. destruct a as [|t|l]; cbn; auto. split; [auto|]. apply B. now left. Qed.
  Lemma hto_tensor_loc a t : hto_tensor a = Ok t -> a = HT t.
  Proof. destruct a; cbn; try discriminate. now intros [= ->]. Qed.
  Lemma Rv_bound' g v vv : Rv g v vv -> forall l, In l (vlocs v) -> l < len g.
  Proof. now intros [_ B]. Qed.

  (** *** jmjTp *)
  Lemma jspec_weak f vf (m : module K) g s vs x vx val vval a va w fd td db g' s' r :
    jspec f vf m -> Rs g s vs -> Rr g x vx -> Ro g val vval -> Rv g a va ->
    f m g s x val a w fd td db = (g', s', r) -> CallV g s x a w g' s' r (vf m vs vx vval va w fd td db).
  Proof. intros H R Rx Rv Ra E. exact (proj1 (H _ _ _ _ _ _ _ _ _ _ _ _ _ _ _ _ R Rx Rv Ra E)). Qed.

  Definition jcall g (s : hst) (x : ref) (a : hvalue) w g' s' r p : Prop :=
    CallV g s x a w g' s' r p /\ (forall q, r = Ok q -> nolist a \/ w <> Input -> nolist q).
  Lemma jcall_raise g s x a w g1 s1 vs1 e e' : Stp g s x g1 s1 vs1 -> e = e' ->
    jcall g s x a w g1 s1 (Raise e) (vs1, Raise e').
  Proof. intros S1 E. split; [now apply Stp_raise|discriminate]. Qed.
  Lemma jcall_none g s x a w g1 s1 vs1 : Stp g s x g1 s1 vs1 -> w <> Input ->
    jcall g s x a w g1 s1 (Ok HN) (vs1, Ok VNone).
  Proof. intros S1 E. split; [now apply Stp_none|]. intros q [= <-] _. discriminate. Qed.
  Lemma jcall_val g s x a w g1 s1 vs1 t p g' r : Stp g s x g1 s1 vs1 -> fresh_val g1 t = (g', r) ->
    p = (q <- t ;; Ok (VT q)) -> jcall g s x a w g' s1 r (vs1, p).
  Proof.
    intros S1 E Ep. destruct (Stp_val _ _ _ a w _ _ _ _ _ _ _ S1 E Ep) as [C N]. split; [auto|]. intros q Hq _. eauto.
  Qed.
  Lemma jcall_V g s x a w g' s' r vs' vr : CallO g s x a w g' s' r (vs', vr) ->
    jcall g s x a w g' s' (q <- r ;; Ok (hof_opt q)) (vs', q <- vr ;; Ok (of_opt q)).
  Proof. intros C. destruct (Call_V _ _ _ _ _ _ _ _ _ _ C) as [C1 N]. split; [auto|]. intros q Hq _. eauto. Qed.

  Lemma hjmjTp_ok : forall m, answers m -> jspec (hjmjTp cg) jmjTp m.
  Proof.
    fix IH 1. intros m A g s vs x vx val vval a va w fd td db g' s' r R Rx Rv Ra E.
    change (jcall g s x a w g' s' r (jmjTp m vs vx vval va w fd td db)). revert E.
    destruct m as [l|cfg|hooks ms|F]; cbn [hjmjTp jmjTp].
    - destruct (hto_opt_ok g a va Ra) as [Ro1 Eo].
      destruct (hto_opt a) as [o|e], (to_opt va) as [vo|e']; cbn in Ro1; try contradiction; cbn [bind].
      2: { injection 1 as <- <- <-. apply jcall_raise; auto using Stp_refl. }
      rewrite (Eo o eq_refl). destruct (hleaf_jmjTp g l x val o w fd td db) as [g1 r1] eqn:E1. injection 1 as <- <- <-.
      apply jcall_V. eapply leaf_jmjTp_call; eauto; destruct l; auto.
    - destruct (hensure (MaxPool cfg) g s x val) as [[g1 s1] r1] eqn:E1.
      destruct (hensure_ok cg _ _ _ _ _ _ _ _ _ _ _ R Rx Rv E1) as (K1 & R1 & Rr1 & G1).
      destruct (ensure (MaxPool cfg) vs vx vval) as [vs1 vr1]. cbn [fst snd] in *. injection 1 as <- <- <-.
      assert (S1 : Stp g s x g1 s1 vs1) by (split; auto).
      destruct r1 as [y|e], vr1 as [vy|e']; cbn in Rr1; try contradiction; cbn [bind]; [|now apply jcall_raise].
      destruct w; [now apply jcall_raise|apply jcall_none; auto; discriminate..].
    - destruct (db_ok fd td db); [|injection 1 as <- <- <-; apply jcall_raise; auto using Stp_refl].
      destruct (hensure (Seq hooks ms) g s x val) as [[g1 s1] r1] eqn:E1.
      destruct (hensure_ok cg _ _ _ _ _ _ _ _ _ _ _ R Rx Rv E1) as (K1 & R1 & Rr1 & G1).
      destruct (ensure (Seq hooks ms) vs vx vval) as [vs1 vr1]. cbn [fst snd] in *.
      assert (S1 : Stp g s x g1 s1 vs1) by (split; auto).
      destruct r1 as [y|e], vr1 as [vy|e']; cbn in Rr1; try contradiction;
        [|injection 1 as <- <- <-; now apply jcall_raise].
      pose proof (keeps_Rr _ _ _ _ K1 Rx) as Rx1. pose proof (keeps_Rv _ _ _ _ K1 Ra) as Ra1.
      assert (Fm : Forall (jspec (hjmjTp cg) jmjTp) ms).
      { revert A. clear - IH. induction ms as [|m ms IHm]; cbn; [constructor|]. intros [A1 A2]. constructor; auto. }
      clear IH A.
      destruct w; [| |injection 1 as <- <- <-; apply jcall_none; auto; discriminate].
      + (* the matrix that is propagated *)
        assert (X : exists g2 mt vmt fd',
          match a with HN => let '(g, q) := alloc g1 (ones (shape (rd g1 x))) in (g, HT q, true) | v => (g1, v, fd) end
            = (g2, mt, fd') /\
          match va with VNone => (VT (ones (shape vx)), true) | v => (v, fd) end = (vmt, fd') /\
          keeps g1 g2 /\ StorageBase.Rv g2 mt vmt /\ mt <> HN /\ argok g g1 g2 a mt /\ (nolist a -> nolist mt)).
        { pose proof Ra1 as Ra2. destruct Ra as [Ea Ba]. destruct a as [|t|l]; cbn in Ea; subst va; cbn beta iota.
          - rewrite (Rr_rd _ _ _ Rx1). destruct (alloc g1 (ones (shape vx))) as [g2 q] eqn:Eq.
            assert (Ef : fresh g1 (Ok (ones (shape vx))) = (g2, Ok q)) by (unfold fresh; now rewrite Eq).
            destruct (fresh_ok _ _ _ _ Ef) as (K2 & R2 & O2). destruct (O2 q eq_refl) as (E & L & P).
            do 4 eexists. split; [reflexivity|]. split; [reflexivity|]. split; [auto|].
            split; [exact (Ro_Rv g2 (Some q) (Some _) R2)|]. split; [discriminate|]. split; [|discriminate].
            right. exists q. split; [auto|]. split; [lia|auto].
          - do 4 eexists. split; [reflexivity|]. split; [reflexivity|]. split; [apply keeps_refl|].
            split; [exact (conj (proj1 Ra2) (proj2 Ra2))|]. split; [discriminate|]. split; [left; auto|auto].
          - do 4 eexists. split; [reflexivity|]. split; [reflexivity|]. split; [apply keeps_refl|].
            split; [exact (conj (proj1 Ra2) (proj2 Ra2))|]. split; [discriminate|]. split; [left; auto|auto]. }
        destruct X as (g2 & mt & vmt & fd' & -> & -> & K2 & Rm & Nm & Am & Lm).
        destruct (hseq_jmjTp_in _ _ _ _ _ _ _ _ _ _ _) as [[g3 ks3] r3] eqn:E3. injection 1 as <- <- <-.
        pose proof (Stp_keeps _ _ _ _ _ _ _ S1 K2) as S2. destruct S2 as (K2' & R2 & G2).
        destruct (seq_jmjTp_in_ok _ _ _ _ _ _ Fm _ _ _ _ _ _ _ _ _ _ _ _ (Rs_kids _ _ _ R2) (Rs_fm _ _ _ R2) Rm Nm E3)
          as (K3 & Rk3 & Rr3 & G3 & O3).
        destruct (seq_jmjTp_in jmjTp hooks (st_fm vs1) ms (st_kids vs1) 0 vmt fd' td db) as [vks3 vr3]. cbn [fst snd] in *.
        destruct (Stp_back _ _ _ _ _ _ _ _ _ (conj K2' (conj R2 G2)) K3 Rk3 G3) as [(Kf & Rf & Gf) Df].
        split.
        * split; [auto|]. split; [auto|]. split; [auto|]. split; [auto|].
          intros q Hq. destruct (O3 _ Hq) as (Nq & O & _). split; [auto|].
          assert (B1 : forall l, In l (locs s1) -> l < len g1) by apply R1.
          eapply outv_argok; [exact K1|exact K2|exact Am|exact O|exact K3| |].
          -- intros l Hl. left. apply locs_mk in Hl. rewrite in_app_iff. tauto.
          -- intros l Hl. apply Df in Hl as [Hl|]; [auto|right; lia].
        * intros q Hq [Na|Nw]; [|contradiction]. destruct (O3 _ Hq) as (_ & _ & N). auto.
      + assert (X : exists g2 r2 vr2,
          match a with
          | HN => let '(g, r) := fresh g1 (b <- size 0 (rd g1 x);; Ok (ones [b; n_params (Seq hooks ms)])) in
                  (g, q <- r;; Ok (HT q, true))
          | v => (g1, Ok (v, fd))
          end = (g2, r2) /\
          match va with
          | VNone => b <- size 0 vx;; Ok (VT (ones [b; n_params (Seq hooks ms)]), true)
          | v => Ok (v, fd)
          end = vr2 /\ keeps g1 g2 /\
          RR (fun p q => StorageBase.Rv g2 (fst p) (fst q) /\ snd p = snd q) r2 vr2).
        { pose proof Ra1 as Ra2. destruct Ra as [Ea Ba]. destruct a as [|t|l]; cbn in Ea; subst va; cbn beta iota.
          - rewrite (Rr_rd _ _ _ Rx1). destruct (fresh g1 _) as [g2 q] eqn:Eq.
            destruct (fresh_ok _ _ _ _ Eq) as (K2 & R2 & O2).
            do 3 eexists. split; [reflexivity|]. split; [reflexivity|]. split; [auto|].
            destruct (size 0 vx) as [b|e], q as [q|e']; cbn in R2 |- *; try contradiction; auto.
            split; [exact (Ro_Rv g2 (Some q) (Some _) R2)|auto].
          - do 3 eexists. split; [reflexivity|]. split; [reflexivity|]. split; [apply keeps_refl|].
            split; [exact (conj (proj1 Ra2) (proj2 Ra2))|auto].
          - do 3 eexists. split; [reflexivity|]. split; [reflexivity|]. split; [apply keeps_refl|].
            split; [exact (conj (proj1 Ra2) (proj2 Ra2))|auto]. }
        destruct X as (g2 & r2 & vr2 & -> & -> & K2 & Rm).
        pose proof (Stp_keeps _ _ _ _ _ _ _ S1 K2) as S2.
        destruct r2 as [[mt fd']|e], vr2 as [[vmt vfd']|e']; cbn in Rm; try contradiction; cbn [bind];
          [|injection 1 as <- <- <-; now apply jcall_raise].
        destruct Rm as [Rm <-].
        assert (X : RR (Rvs g2) match mt with HL l => Ok l | HT t => hseq_blocks ms t 0 fd' | HN => Raise TypeError end
                              match vmt with VL l => Ok l | VT t => seq_blocks ms t 0 fd' | VNone => Raise TypeError end).
        { destruct Rm as [<- Bm]. destruct mt as [|t|l]; cbn; auto.
          - apply hseq_blocks_ok. split; [auto|]. apply Bm. now left.
          - split; auto. }
        destruct (match mt with HL l => Ok l | HT t => hseq_blocks ms t 0 fd' | HN => Raise TypeError end) as [bs|e],
                 (match vmt with VL l => Ok l | VT t => seq_blocks ms t 0 fd' | VNone => Raise TypeError end) as [vbs|e'];
          cbn in X; try contradiction; cbn [bind]; [|injection 1 as <- <- <-; now apply jcall_raise].
        destruct (hseq_jmjTp_w _ _ _ _ _ _ _ _ _ _ _ _) as [[g3 ks3] r3] eqn:E3. injection 1 as <- <- <-.
        destruct S2 as (K2' & R2 & G2).
        destruct (seq_jmjTp_w_ok _ _ _ _ _ _ Fm _ _ _ _ _ _ None None _ _ _ _ _ _ (Rs_kids _ _ _ R2) (Rs_fm _ _ _ R2) X I
                    (sumok_none _ _ _ _) E3) as (K3 & Rk3 & Rr3 & G3 & O3).
        cbn [of_opt option_map] in *.
        destruct (seq_jmjTp_w jmjTp hooks (st_fm vs1) ms (st_kids vs1) 0 vbs VNone fd' td db) as [vks3 vr3]. cbn [fst snd] in *.
        destruct (Stp_back _ _ _ _ _ _ _ _ _ (conj K2' (conj R2 G2)) K3 Rk3 G3) as [(Kf & Rf & Gf) Df].
        split.
        * split; [auto|]. split; [auto|]. split; [auto|]. split; [auto|].
          intros q Hq. destruct (O3 _ Hq) as (o & -> & So). split; [discriminate|].
          apply outv_arg with (a := HN); [discriminate|]. apply outv_shift with (g1 := g2); auto; [cbn; tauto|].
          eapply outv_more; [apply sumok_outv; [exact K3|exact So]|].
          intros l Hl. left. apply locs_mk in Hl. rewrite in_app_iff. tauto.
        * intros q Hq _. destruct (O3 _ Hq) as (o & -> & _). destruct o; discriminate.
    - destruct (db_ok fd td db); [|injection 1 as <- <- <-; apply jcall_raise; auto using Stp_refl].
      destruct (hensure (Skip F) g s x val) as [[g1 s1] r1] eqn:E1.
      destruct (hensure_ok cg _ _ _ _ _ _ _ _ _ _ _ R Rx Rv E1) as (K1 & R1 & Rr1 & G1).
      destruct (ensure (Skip F) vs vx vval) as [vs1 vr1]. cbn [fst snd] in *.
      assert (S1 : Stp g s x g1 s1 vs1) by (split; auto).
      destruct r1 as [y|e], vr1 as [vy|e']; cbn in Rr1; try contradiction; cbn [bind];
        [|injection 1 as <- <- <-; now apply jcall_raise].
      pose proof (keeps_Rr _ _ _ _ K1 Rx) as Rx1. pose proof (keeps_Rv _ _ _ _ K1 Ra) as Ra1.
      rewrite (Rr_rd _ _ _ Rx1), (Rr_rd _ _ _ Rr1).
      destruct (size 0 vx) as [b|e]; cbn [bind]; [|injection 1 as <- <- <-; now apply jcall_raise].
      destruct (numel0 vx) as [l1|e]; cbn [bind]; [|injection 1 as <- <- <-; now apply jcall_raise].
      destruct (numel0 vy) as [l2|e]; cbn [bind]; [|injection 1 as <- <- <-; now apply jcall_raise].
      destruct (hslice_from_ok g1 1 l1 y vy Rr1) as [Rt _].
      destruct (hslice_from 1 l1 y) as [t|e], (slice_from n0 1 l1 vy) as [vt|e']; cbn in Rt; try contradiction; cbn [bind];
        [|injection 1 as <- <- <-; now apply jcall_raise].
      destruct (hjmjTp cg F g1 (h_kid s1) x (Some t) a w fd td db) as [[g2 k2] r2] eqn:E2.
      destruct (proj1 (IH F A _ _ _ _ _ (Some t) (Some vt) _ _ _ _ _ _ _ _ _ (Rs_kid _ _ _ R1) Rx1 Rt Ra1 E2)) as (K2 & R2 & Rr2 & G2 & _).
      destruct (jmjTp F (st_kid vs1) vx (Some vt) va w fd td db) as [vk2 vr2]. cbn [fst snd] in *.
      pose proof (Stp_kid _ _ _ _ _ _ _ _ _ S1 K2 R2 G2) as S2. clear IH.
      destruct r2 as [j|e], vr2 as [vj|e']; cbn in Rr2; try contradiction;
        [|injection 1 as <- <- <-; now apply jcall_raise].
      pose proof (keeps_Rr _ _ _ _ K2 Rx1) as Rx2. pose proof (keeps_Rv _ _ _ _ K2 Ra1) as Ra2.
      pose proof (keeps_Rr _ _ _ _ K2 Rt) as Rt2.
      pose proof (hto_tensor_ok _ _ _ Rr2) as Rj. pose proof (hto_tensor_ok _ _ _ Ra2) as Rm.
      destruct w; [| |injection 1 as <- <- <-; apply jcall_none; auto; discriminate].
      + destruct td.
        * destruct (fresh_val _ _) as [g3 r3] eqn:E3. injection 1 as <- <- <-. eapply jcall_val; eauto.
          destruct (hto_tensor a) as [mt|e], (to_tensor va) as [vmt|e']; cbn in Rm; try contradiction; cbn [bind]; [|congruence].
          rewrite (Rr_rd _ _ _ Rm). destruct (if fd then Ok vmt else einsum "bii->bi" [vmt]) as [c|e]; cbn [bind]; [|reflexivity].
          destruct (hto_tensor j) as [jt|e], (to_tensor vj) as [vjt|e']; cbn in Rj; try contradiction; cbn [bind]; [|congruence].
          now rewrite (Rr_rd _ _ _ Rj).
        * destruct (hto_tensor a) as [mt|e], (to_tensor va) as [vmt|e']; cbn in Rm; try contradiction; cbn [bind];
            [|injection 1 as <- <- <-; now apply jcall_raise].
          assert (X : exists g3 r3 vr3, (if fd then fresh g2 (diag_embed (rd g2 mt)) else (g2, Ok mt)) = (g3, r3) /\
                    (if fd then diag_embed vmt else Ok vmt) = vr3 /\ keeps g2 g3 /\ RR (Rr g3) r3 vr3).
          { destruct fd.
            - rewrite (Rr_rd _ _ _ Rm). destruct (fresh g2 _) as [g3 r3] eqn:E3.
              destruct (fresh_ok _ _ _ _ E3) as (K3 & R3 & _). do 3 eexists. eauto.
            - do 3 eexists. split; [reflexivity|]. split; [reflexivity|]. split; [apply keeps_refl|exact Rm]. }
          destruct X as (g3 & r3 & vr3 & -> & -> & K3 & Rr3). pose proof (Stp_keeps _ _ _ _ _ _ _ S2 K3) as S3.
          destruct r3 as [m3|e], vr3 as [vm3|e']; cbn in Rr3; try contradiction;
            [|injection 1 as <- <- <-; now apply jcall_raise].
          destruct (hjmp cg F g3 (h_kid (hset_kid s1 k2)) x (Some t) (Some m3) Input) as [[g4 k4] r4] eqn:E4.
          destruct (hjmp_ok cg F A _ _ _ _ _ (Some t) (Some vt) (Some m3) (Some vm3) _ _ _ _ (Rs_kid _ _ _ (proj1 (proj2 S3)))
                      (keeps_Rr _ _ _ _ K3 Rx2) (keeps_Rr _ _ _ _ K3 Rt2) Rr3 E4) as (K4 & R4 & Rr4 & G4 & _).
          destruct (jmp F (st_kid (set_kid vs1 vk2)) vx (Some vt) (Some vm3) Input) as [vk4 vr4]. cbn [fst snd] in *.
          pose proof (Stp_kid _ _ _ _ _ _ _ _ _ S3 K4 R4 G4) as S4.
          destruct r4 as [[jm|]|e], vr4 as [[vjm|]|e']; cbn in Rr4; try contradiction; cbn [bind need];
            try (injection 1 as <- <- <-; now apply jcall_raise).
          pose proof (hto_tensor_ok _ _ _ (keeps_Rv _ _ _ _ K4 (keeps_Rv _ _ _ _ K3 Rr2))) as Rj4.
          destruct fd.
          -- destruct (fresh_val _ _) as [g5 r5] eqn:E5. injection 1 as <- <- <-. eapply jcall_val; eauto.
             rewrite (Rr_rd _ _ _ Rr4), (Rr_rd _ _ _ (keeps_Rr _ _ _ _ K4 Rr3)).
             destruct (transpose12 n0 vjm) as [vjmT|]; cbn [bind]; [|reflexivity].
             destruct (hto_tensor j) as [jt|e], (to_tensor vj) as [vjt|e']; cbn in Rj4; try contradiction; cbn [bind]; [|congruence].
             rewrite (Rr_rd _ _ _ Rj4). bassoc.
          -- destruct (htranspose_ok g4 m3 vm3 (keeps_Rr _ _ _ _ K4 Rr3)) as [Rmt _].
             destruct (htranspose12 m3) as [mT|e], (transpose12 n0 vm3) as [vmT|e']; cbn in Rmt; try contradiction;
               [|injection 1 as <- <- <-; now apply jcall_raise].
             destruct (hjmp cg F g4 (h_kid (hset_kid (hset_kid s1 k2) k4)) x (Some t) (Some mT) Input) as [[g5 k5] r5] eqn:E5.
             destruct (hjmp_ok cg F A _ _ _ _ _ (Some t) (Some vt) (Some mT) (Some vmT) _ _ _ _ (Rs_kid _ _ _ (proj1 (proj2 S4)))
                         (keeps_Rr _ _ _ _ K4 (keeps_Rr _ _ _ _ K3 Rx2)) (keeps_Rr _ _ _ _ K4 (keeps_Rr _ _ _ _ K3 Rt2)) Rmt E5)
               as (K5 & R5 & Rr5 & G5 & _).
             destruct (jmp F (st_kid (set_kid (set_kid vs1 vk2) vk4)) vx (Some vt) (Some vmT) Input) as [vk5 vr5]. cbn [fst snd] in *.
             pose proof (Stp_kid _ _ _ _ _ _ _ _ _ S4 K5 R5 G5) as S5.
             destruct (fresh_val _ _) as [g6 r6] eqn:E6. injection 1 as <- <- <-. eapply jcall_val; eauto.
             pose proof (hto_tensor_ok _ _ _ (keeps_Rv _ _ _ _ K5 (keeps_Rv _ _ _ _ K4 (keeps_Rv _ _ _ _ K3 Rr2)))) as Rj5.
             rewrite (Rr_rd _ _ _ (keeps_Rr _ _ _ _ K5 Rr4)), (Rr_rd _ _ _ (keeps_Rr _ _ _ _ K5 (keeps_Rr _ _ _ _ K4 Rr3))).
             destruct r5 as [[mj|]|e], vr5 as [[vmj|]|e']; cbn in Rr5; try contradiction; cbn [bind need]; try congruence.
             rewrite (Rr_rd _ _ _ Rr5). destruct (transpose12 n0 vmj) as [vmjT|]; cbn [bind]; [|reflexivity].
             destruct (hto_tensor j) as [jt|e], (to_tensor vj) as [vjt|e']; cbn in Rj5; try contradiction; cbn [bind]; [|congruence].
             rewrite (Rr_rd _ _ _ Rj5). bassoc.
      + destruct (fresh_val _ _) as [g3 r3] eqn:E3. injection 1 as <- <- <-. eapply jcall_val; eauto.
        rewrite (Rr_rd _ _ _ Rx2).
        destruct (hto_tensor j) as [jt|e], (to_tensor vj) as [vjt|e']; cbn in Rj; try contradiction; cbn [bind]; [|congruence].
        rewrite (Rr_rd _ _ _ Rj). destruct td; bassoc.
  Qed.

  (** *** jTmjp: a method whose result may be a list of blocks *)
  Definition jspecT (f : hmethod) (vf : vmethod) (m : module K) : Prop :=
    forall g s vs x vx val vval a va w fd td db g' s' r, Rs g s vs -> Rr g x vx -> Ro g val vval -> Rv g a va ->
      f m g s x val a w fd td db = (g', s', r) -> CallV g s x a w g' s' r (vf m vs vx vval va w fd td db).

  Definition jT_in_call (f : hmethod) (fd td db : bool) : call_t (K := K) (V := hvalue) :=
    fun m ms k g s x y v => f m g s x (Some y) v Input (match ms with [] => fd | _ => db end)
                              (if Nat.eqb k 0 then td else db) db.
  Definition jT_in_vcall (f : vmethod) (fd td db : bool) : vcall_t (K := K) (VV := value K) :=
    fun m ms k s x y v => f m s x (Some y) v Input (match ms with [] => fd | _ => db end)
                            (if Nat.eqb k 0 then td else db) db.
  Definition jT_wi_call (f : hmethod) (fd db : bool) : call_t (K := K) (V := hvalue) :=
    fun m ms k g s x y v => f m g s x (Some y) v Input (match ms with [] => fd | _ => db end) db db.
  Definition jT_wi_vcall (f : vmethod) (fd db : bool) : vcall_t (K := K) (VV := value K) :=
    fun m ms k s x y v => f m s x (Some y) v Input (match ms with [] => fd | _ => db end) db db.
  Definition drop_none (v : hvalue) : option hvalue := match v with HN => None | t => Some t end.
  Definition vdrop_none (v : value K) : option (value K) := match v with VNone => None | t => Some t end.
  Definition jT_w_call (f : hmethod) (fd td db : bool) : callw_t (K := K) (V := hvalue) (W := hvalue) :=
    fun m ms k g s x y v =>
      let '(g, s, r) := f m g s x (Some y) v Weight (match ms with [] => fd | _ => db end) td db in
      (g, s, r <- r ;; Ok (drop_none r)).
  Definition jT_w_vcall (f : vmethod) (fd td db : bool) : vcallw_t (K := K) (VV := value K) (WW := value K) :=
    fun m ms k s x y v =>
      let '(s, r) := f m s x (Some y) v Weight (match ms with [] => fd | _ => db end) td db in
      (s, r <- r ;; Ok (vdrop_none r)).

  Lemma hseq_jTmjp_in_bin f hooks fm fd td db ms : forall g ks k v,
    hseq_jTmjp_in f hooks fm ms g ks k v fd td db = bin (jT_in_call f fd td db) hooks fm ms g ks k v.
  Proof.
    induction ms as [|m ms IH]; intros; cbn [hseq_jTmjp_in bin]; [reflexivity|].
    destruct (hkid_split ks) as [s ks0]. rewrite IH.
    destruct (bin (jT_in_call f fd td db) hooks fm ms g ks0 (S k) v) as [[g1 ks1] r1]. reflexivity.
  Qed.
  Lemma seq_jTmjp_in_bin f hooks fm fd td db ms : forall ks k v,
    seq_jTmjp_in f hooks fm ms ks k v fd td db = vbin (jT_in_vcall f fd td db) hooks fm ms ks k v.
  Proof.
    induction ms as [|m ms IH]; intros; cbn [seq_jTmjp_in vbin]; [reflexivity|].
    destruct (kid_split ks) as [s ks0]. rewrite IH.
    destruct (vbin (jT_in_vcall f fd td db) hooks fm ms ks0 (S k) v) as [ks1 r1]. reflexivity.
  Qed.
  Lemma hseq_jTmjp_w_bw f hooks fm fd td db ms : forall g ks k v,
    hseq_jTmjp_w f hooks fm ms g ks k v fd td db =
    bw (jT_wi_call f fd db) (jT_w_call f fd td db) hooks fm ms g ks k v.
  Proof.
    induction ms as [|m ms IH]; intros; cbn [hseq_jTmjp_w bw]; [reflexivity|].
    destruct (hkid_split ks) as [s ks0]. rewrite IH.
    destruct (bw (jT_wi_call f fd db) (jT_w_call f fd td db) hooks fm ms g ks0 (S k) v) as [[g1 ks1] r1].
    destruct (a <- r1;; p <- hfmap2 hooks fm k;; Ok (a, p)) as [[[vs v1] [x y]]|]; [|reflexivity].
    unfold jT_w_call at 1. cbv zeta. destruct (f m g1 s x (Some y) v1 Weight _ td db) as [[g2 s2] [vk|]]; cbn [bind]; [|reflexivity].
    destruct vk; reflexivity.
  Qed.
  Lemma seq_jTmjp_w_bw f hooks fm fd td db ms : forall ks k v,
    seq_jTmjp_w f hooks fm ms ks k v fd td db =
    vbw (jT_wi_vcall f fd db) (jT_w_vcall f fd td db) hooks fm ms ks k v.
  Proof.
    induction ms as [|m ms IH]; intros; cbn [seq_jTmjp_w vbw]; [reflexivity|].
    destruct (kid_split ks) as [s ks0]. rewrite IH.
    destruct (vbw (jT_wi_vcall f fd db) (jT_w_vcall f fd td db) hooks fm ms ks0 (S k) v) as [ks1 r1].
    destruct (a <- r1;; p <- fmap2 hooks fm k;; Ok (a, p)) as [[[vs v1] [x y]]|]; [|reflexivity].
    unfold jT_w_vcall at 1. cbv zeta. destruct (f m s x (Some y) v1 Weight _ td db) as [s2 [vk|]]; cbn [bind]; [|reflexivity].
    destruct vk; reflexivity.
  Qed.
  Lemma jT_in_ok f vf fd td db m : jspecT f vf m -> call_in Rv (fun v => v) (jT_in_call f fd td db) (jT_in_vcall vf fd td db) m.
  Proof.
    intros H ms k g s vs x vx y vy v vv g' s' r R Rx Ry Rv _ E.
    exact (H _ _ _ _ _ (Some y) (Some vy) _ _ _ _ _ _ _ _ _ R Rx Ry Rv E).
  Qed.
  Lemma jT_wi_ok f vf fd db m : jspecT f vf m -> call_in Rv (fun v => v) (jT_wi_call f fd db) (jT_wi_vcall vf fd db) m.
  Proof.
    intros H ms k g s vs x vx y vy v vv g' s' r R Rx Ry Rv _ E.
    exact (H _ _ _ _ _ (Some y) (Some vy) _ _ _ _ _ _ _ _ _ R Rx Ry Rv E).
  Qed.
  Lemma jT_w_ok f vf fd td db m : jspecT f vf m ->
    call_w Rv (fun v => v) Rv (fun v => v) (jT_w_call f fd td db) (jT_w_vcall vf fd td db) m.
  Proof.
    intros H ms k g s vs x vx y vy v vv g' s' r R Rx Ry Rv _. unfold jT_w_call, jT_w_vcall.
    destruct (f m g s x (Some y) v Weight _ td db) as [[g1 s1] r1] eqn:E1. injection 1 as <- <- <-.
    destruct (H _ _ _ _ _ (Some y) (Some vy) _ _ _ _ _ _ _ _ _ R Rx Ry Rv E1) as (K1 & R1 & Rr1 & G1 & O1).
    destruct (vf m vs vx (Some vy) vv Weight _ td db) as [vs1 vr1]. cbn [fst snd] in *.
    split; [auto|]. split; [auto|]. split; [|split; [auto|]].
    - destruct r1 as [q|], vr1 as [vq|]; cbn in Rr1 |- *; try contradiction; auto.
      destruct Rr1 as [<- B]. destruct q; cbn; auto; split; auto.
    - intros q Hq l Hl. destruct r1 as [q1|]; [|discriminate]. cbn in Hq. injection Hq as <-.
      destruct (O1 _ eq_refl) as [_ [O _]]. assert (Hl' : In l (vlocs q1)) by (destruct q1; exact Hl).
      destruct (O l Hl') as [|[? _]]; [auto|discriminate].
  Qed.
  Lemma mapM_tensor_ok g vs vvs : Forall2 (Rv g) vs vvs -> RR (Forall2 (Rr g)) (mapM hto_tensor vs) (mapM to_tensor vvs).
  Proof.
    induction 1 as [|a va vs vvs Ra Rs IH]; cbn; [constructor|]. pose proof (hto_tensor_ok _ _ _ Ra) as Rt.
    destruct (hto_tensor a) as [t|], (to_tensor va) as [vt|]; cbn in Rt |- *; try contradiction; auto.
    destruct (mapM hto_tensor vs) as [ts|], (mapM to_tensor vvs) as [vts|]; cbn in IH |- *; try contradiction; auto.
  Qed.
  Lemma Rv_list g vs vvs : Forall2 (Rv g) vs vvs -> Rv g (HL vs) (VL vvs).
  Proof.
    intros F. assert (X : map (vl g) vs = vvs /\ forall l, In l (flat_map vlocs vs) -> l < len g).
    { induction F as [|a va vs vvs [<- B] _ [<- B']]; cbn; [split; [auto|tauto]|]. split; [auto|].
      intros l Hl. apply in_app_or in Hl as [|]; auto. }
    destruct X as [<- B]. split; auto.
  Qed.
  Lemma pool_nn idx x y mt fd td db : pool_jTmjp (K := K) idx x y mt Input fd td db <> Ok None.
  Proof.
    unfold pool_jTmjp. apply bind_nn. intros [[[? ?] ?] ?]. apply bind_nn. intros [[[? ?] ?] ?].
    unfold check. destruct (Nat.eqb _ _); [|discriminate]. apply bind_nn. intros [? fd']. destruct (shape_eqb _ _); [|discriminate].
    destruct fd', td; apply some_nn.
  Qed.

  Lemma hjTmjp_ok : forall m, answers m -> jspecT (hjTmjp cg) jTmjp m.
  Proof.
    fix IH 1. intros m A g s vs x vx val vval a va w fd td db g' s' r R Rx Rv Ra.
    destruct m as [l|cfg|hooks ms|F]; cbn [hjTmjp jTmjp].
    - destruct (hto_opt_ok g a va Ra) as [Ro1 Eo].
      destruct (hto_opt a) as [o|e], (to_opt va) as [vo|e']; cbn in Ro1; try contradiction; cbn [bind].
      2: { injection 1 as <- <- <-. apply Stp_raise; auto using Stp_refl. }
      rewrite (Eo o eq_refl). destruct (hleaf_jTmjp g l x val o w fd td db) as [g1 r1] eqn:E1. injection 1 as <- <- <-.
      apply Call_V. eapply leaf_jTmjp_call; eauto; destruct l; auto.
    - destruct (hensure (MaxPool cfg) g s x val) as [[g1 s1] r1] eqn:E1.
      destruct (hensure_ok cg _ _ _ _ _ _ _ _ _ _ _ R Rx Rv E1) as (K1 & R1 & Rr1 & G1).
      destruct (ensure (MaxPool cfg) vs vx vval) as [vs1 vr1]. cbn [fst snd] in *.
      destruct (fresh_opt _ _) as [g2 r2] eqn:E2. injection 1 as <- <- <-.
      assert (Ep : (y <- vr1;; mt <- to_opt va;; r <- pool_jTmjp (st_idx vs1) vx y mt w fd td db;; Ok (of_opt r)) =
                   (r <- (y <- vr1;; mt <- to_opt va;; pool_jTmjp (st_idx vs1) vx y mt w fd td db);; Ok (of_opt r))).
      { destruct vr1; [|reflexivity]. destruct (to_opt va); reflexivity. }
      rewrite Ep. apply Call_V. eapply fresh_call; eauto.
      + intros ->. apply bind_nn; intros ?. apply bind_nn; intros ?. apply pool_nn.
      + rewrite <- E2. f_equal. rewrite (Rs_idx _ _ _ R1), (Rr_rd _ _ _ (keeps_Rr _ _ _ _ K1 Rx)).
        destruct r1 as [y|e], vr1 as [vy|e']; cbn in Rr1; try contradiction; cbn [bind]; [|congruence].
        rewrite (Rr_rd _ _ _ Rr1). destruct (hto_opt_ok g1 a va (keeps_Rv _ _ _ _ K1 Ra)) as [Ro1 _].
        destruct (hto_opt a) as [o|e], (to_opt va) as [vo|e']; cbn in Ro1; try contradiction; cbn [bind]; [|congruence].
        now rewrite (rdo_eq _ _ _ Ro1).
    - destruct (db_ok fd td db); [|injection 1 as <- <- <-; apply Stp_raise; auto using Stp_refl].
      destruct (hensure (Seq hooks ms) g s x val) as [[g1 s1] r1] eqn:E1.
      destruct (hensure_ok cg _ _ _ _ _ _ _ _ _ _ _ R Rx Rv E1) as (K1 & R1 & Rr1 & G1).
      destruct (ensure (Seq hooks ms) vs vx vval) as [vs1 vr1]. cbn [fst snd] in *.
      assert (S1 : Stp g s x g1 s1 vs1) by (split; auto).
      destruct r1 as [y|e], vr1 as [vy|e']; cbn in Rr1; try contradiction; cbn [bind];
        [|injection 1 as <- <- <-; now apply Stp_raise].
      pose proof (keeps_Rv _ _ _ _ K1 Ra) as Ra1.
      assert (X : exists g2 r2 vr2,
        match a with
        | HN => let '(g, r) := fresh g1 match shape (rd g1 y) with
                                        | [] => Raise IndexError
                                        | b :: sh => Ok (ones [b; numel sh])
                                        end in
                (g, q <- r;; Ok (HT q, true))
        | v => (g1, Ok (v, fd))
        end = (g2, r2) /\
        match va with
        | VNone => match shape vy with [] => Raise IndexError | b :: sh => Ok (VT (ones [b; numel sh]), true) end
        | v => Ok (v, fd)
        end = vr2 /\ keeps g1 g2 /\
        RR (fun p q => StorageBase.Rv g2 (fst p) (fst q) /\ snd p = snd q /\ fst p <> HN /\ argok g g1 g2 a (fst p)) r2 vr2).
      { pose proof Ra1 as Ra2. destruct Ra as [Ea Ba]. destruct a as [|t|l]; cbn in Ea; subst va; cbn beta iota.
        - rewrite (Rr_rd _ _ _ Rr1). destruct (fresh g1 _) as [g2 q] eqn:Eq.
          destruct (fresh_ok _ _ _ _ Eq) as (K2 & R2 & O2).
          do 3 eexists. split; [reflexivity|]. split; [reflexivity|]. split; [auto|].
          destruct (shape vy) as [|b sh], q as [q|e']; cbn in R2 |- *; try contradiction; auto.
          destruct (O2 q eq_refl) as (E & L & P).
          split; [exact (Ro_Rv g2 (Some q) (Some _) R2)|]. split; [auto|]. split; [discriminate|].
          right. exists q. split; [auto|]. split; [lia|auto].
        - do 3 eexists. split; [reflexivity|]. split; [reflexivity|]. split; [apply keeps_refl|].
          split; [exact (conj (proj1 Ra2) (proj2 Ra2))|]. split; [auto|]. split; [discriminate|left; auto].
        - do 3 eexists. split; [reflexivity|]. split; [reflexivity|]. split; [apply keeps_refl|].
          split; [exact (conj (proj1 Ra2) (proj2 Ra2))|]. split; [auto|]. split; [discriminate|left; auto]. }
      destruct X as (g2 & r2 & vr2 & -> & -> & K2 & Rm).
      pose proof (Stp_keeps _ _ _ _ _ _ _ S1 K2) as S2.
      destruct r2 as [[mt fd']|e], vr2 as [[vmt vfd']|e']; cbn in Rm; try contradiction; cbn [bind];
        [|injection 1 as <- <- <-; now apply Stp_raise].
      destruct Rm as (Rm & <- & Nm & Am).
      assert (Fm : Forall (jspecT (hjTmjp cg) jTmjp) ms).
      { revert A. clear - IH. induction ms as [|m ms IHm]; cbn; [constructor|]. intros [A1 A2]. constructor; auto. }
      assert (FmI : Forall (call_in StorageBase.Rv (fun v => v) (jT_in_call (hjTmjp cg) fd' td db) (jT_in_vcall jTmjp fd' td db)) ms).
      { revert Fm. apply Forall_impl. intros m H. now apply jT_in_ok. }
      assert (FmW : Forall (fun m =>
        call_in StorageBase.Rv (fun v => v) (jT_wi_call (hjTmjp cg) fd' db) (jT_wi_vcall jTmjp fd' db) m /\
        call_w StorageBase.Rv (fun v => v) StorageBase.Rv (fun v => v) (jT_w_call (hjTmjp cg) fd' td db)
          (jT_w_vcall jTmjp fd' td db) m) ms).
      { revert Fm. apply Forall_impl. intros m H. split; [now apply jT_wi_ok|now apply jT_w_ok]. }
      clear IH A Fm. destruct S2 as (K2' & R2 & G2).
      assert (B1 : forall l, In l (locs s1) -> l < len g1) by apply R1.
      assert (Bin : forall g3 ks3 r3, bin (jT_in_call (hjTmjp cg) fd' td db) hooks (h_fm s1) ms g2 (h_kids s1) 0 mt = (g3, ks3, r3) ->
        Stp g s x g3 (HSt (h_fm s1) (h_idx s1) ks3)
          (St (st_fm vs1) (st_idx vs1) (fst (vbin (jT_in_vcall jTmjp fd' td db) hooks (st_fm vs1) ms (st_kids vs1) 0 vmt))) /\
        RR (StorageBase.Rv g3) r3 (snd (vbin (jT_in_vcall jTmjp fd' td db) hooks (st_fm vs1) ms (st_kids vs1) 0 vmt)) /\
        (forall q, r3 = Ok q -> q <> HN /\ outv g a Input g3 (locs (HSt (h_fm s1) (h_idx s1) ks3)) q)).
      { intros g3 ks3 r3 E3.
        destruct (bin_ok cg StorageBase.Rv (fun v => v) Rv_bound' _ _ _ _ _ _ FmI _ _ _ _ _ _ _ _ _ (Rs_kids _ _ _ R2) (Rs_fm _ _ _ R2)
                    Rm Nm E3) as (K3 & Rk3 & Rr3 & G3 & O3).
        destruct (Stp_back _ _ _ _ _ _ _ _ _ (conj K2' (conj R2 G2)) K3 Rk3 G3) as [S3 Df].
        split; [exact S3|]. split; [exact Rr3|]. intros q Hq. destruct (O3 _ Hq) as (Nq & O). split; [auto|].
        eapply outv_argok; [exact K1|exact K2|exact Am|exact O|exact K3| |].
        - intros l Hl. left. apply locs_mk in Hl. rewrite in_app_iff. tauto.
        - intros l Hl. apply Df in Hl as [Hl|]; [auto|right; lia]. }
      destruct w.
      + rewrite hseq_jTmjp_in_bin. destruct (bin _ _ _ _ _ _ _ _) as [[g3 ks3] r3] eqn:E3. injection 1 as <- <- <-.
        destruct (Bin _ _ _ eq_refl) as ((Kf & Rf & Gf) & Rr3 & O3). rewrite seq_jTmjp_in_bin.
        destruct (vbin _ _ _ _ _ _ _) as [vks3 vr3]. cbn [fst snd] in *.
        split; [auto|]. split; [auto|]. split; [destruct r3, vr3; exact Rr3|]. split; [auto|].
        intros q Hq. destruct r3 as [q3|]; [|discriminate]. cbn in Hq. injection Hq as <-.
        destruct (O3 _ eq_refl). auto.
      + rewrite hseq_jTmjp_w_bw. destruct (bw _ _ _ _ _ _ _ _ _) as [[g3 ks3] r3] eqn:E3.
        destruct (bw_ok cg StorageBase.Rv (fun v => v) Rv_mono _ _ StorageBase.Rv (fun v => v) Rv_mono _ _ _ _ _ _ FmW _ _ _ _ _ _ _ _ _
                    (Rs_kids _ _ _ R2) (Rs_fm _ _ _ R2) Rm Nm E3) as (K3 & Rk3 & Rr3 & G3 & O3).
        rewrite seq_jTmjp_w_bw. destruct (vbw _ _ _ _ _ _ _ _) as [vks3 vr3]. cbn [fst snd] in *.
        destruct (Stp_back _ _ _ _ _ _ _ _ _ (conj K2' (conj R2 G2)) K3 Rk3 G3) as [S3 Df].
        destruct r3 as [[bs v3]|e], vr3 as [[vbs vv3]|e']; cbn in Rr3; try contradiction; cbn [bind];
          [|injection 1 as <- <- <-; now apply Stp_raise].
        destruct Rr3 as [Rb _]. cbn [fst snd] in Rb. destruct (O3 _ eq_refl) as [_ Ob]. cbn [fst] in Ob.
        destruct bs as [|b0 bs]; inversion Rb as [|? vb0 ? vbs0 Rb0 Rbs0]; subst.
        { injection 1 as <- <- <-. apply Stp_none; auto. discriminate. }
        destruct td.
        * destruct (fresh_val _ _) as [g4 r4] eqn:E4. injection 1 as <- <- <-.
          eapply proj1, Stp_val; eauto. pose proof (mapM_tensor_ok _ _ _ Rb) as Rt.
          destruct (mapM hto_tensor (b0 :: bs)) as [ts|e], (mapM to_tensor (vb0 :: vbs0)) as [vts|e']; cbn in Rt;
            try contradiction; cbn [bind]; [|congruence]. now rewrite (rd_list _ _ _ Rt).
        * injection 1 as <- <- <-. destruct S3 as (Kf & Rf & Gf).
          split; [auto|]. split; [auto|]. split; [exact (Rv_list _ _ _ Rb)|]. split; [auto|].
          intros q [= <-]. split; [discriminate|]. split; [|exact I].
          pose proof (k_len _ _ _ K2'). intros l Hl. left.
          destruct (Ob l) as [B N]; [exact Hl|]. split; [lia|].
          intros I. apply N. apply locs_mk in I. rewrite in_app_iff. tauto.
      + rewrite hseq_jTmjp_in_bin. destruct (bin _ _ _ _ _ _ _ _) as [[g3 ks3] r3] eqn:E3. injection 1 as <- <- <-.
        destruct (Bin _ _ _ eq_refl) as (S3 & Rr3 & _). rewrite seq_jTmjp_in_bin.
        destruct (vbin _ _ _ _ _ _ _) as [vks3 vr3]. cbn [fst snd] in *.
        destruct r3 as [q|], vr3 as [vq|]; cbn in Rr3; try contradiction; cbn [bind]; [apply Stp_none; auto; discriminate|now apply Stp_raise].
    - destruct (db_ok fd td db); [|injection 1 as <- <- <-; apply Stp_raise; auto using Stp_refl].
      destruct (hensure (Skip F) g s x val) as [[g1 s1] r1] eqn:E1.
      destruct (hensure_ok cg _ _ _ _ _ _ _ _ _ _ _ R Rx Rv E1) as (K1 & R1 & Rr1 & G1).
      destruct (ensure (Skip F) vs vx vval) as [vs1 vr1]. cbn [fst snd] in *.
      assert (S1 : Stp g s x g1 s1 vs1) by (split; auto).
      destruct r1 as [y|e], vr1 as [vy|e']; cbn in Rr1; try contradiction; cbn [bind];
        [|injection 1 as <- <- <-; now apply Stp_raise].
      pose proof (keeps_Rv _ _ _ _ K1 Ra) as Ra1.
      assert (X : exists g2 r2 vr2,
        match a with
        | HN => let '(g, q) := alloc g1 (ones (shape (rd g1 y))) in (g, Ok (y, q, true))
        | v => (g1, t <- hto_tensor v;; Ok (y, t, fd))
        end = (g2, r2) /\
        match va with
        | VNone => Ok (ones (shape vy), true)
        | v => t <- to_tensor v;; Ok (t, fd)
        end = vr2 /\ keeps g1 g2 /\
        RR (fun p q => fst (fst p) = y /\ Rr g2 (snd (fst p)) (fst q) /\ snd p = snd q) r2 vr2).
      { destruct Ra1 as [<- Ba]. destruct a as [|t|l]; cbn [vl]; cbn beta iota.
        - rewrite (Rr_rd _ _ _ Rr1). destruct (alloc g1 (ones (shape vy))) as [g2 q] eqn:Eq.
          assert (Ef : fresh g1 (Ok (ones (shape vy))) = (g2, Ok q)) by (unfold fresh; now rewrite Eq).
          destruct (fresh_ok _ _ _ _ Ef) as (K2 & R2 & O2).
          do 3 eexists. split; [reflexivity|]. split; [reflexivity|]. split; [auto|]. cbn. auto.
        - do 3 eexists. split; [reflexivity|]. split; [reflexivity|]. split; [apply keeps_refl|].
          cbn. split; [auto|]. split; [|auto]. split; [auto|]. apply Ba. now left.
        - do 3 eexists. split; [reflexivity|]. split; [reflexivity|]. split; [apply keeps_refl|]. reflexivity. }
      destruct X as (g2 & r2 & vr2 & -> & -> & K2 & Rm).
      pose proof (Stp_keeps _ _ _ _ _ _ _ S1 K2) as S2. pose proof (keeps_Rr _ _ _ _ (keeps_trans _ _ _ _ K1 K2) Rx) as Rx2.
      destruct r2 as [[[y' mt] fd']|e], vr2 as [[vmt vfd']|e']; cbn in Rm; try contradiction; cbn [bind];
        [|injection 1 as <- <- <-; now apply Stp_raise].
      destruct Rm as (-> & Rm & <-). rewrite (Rr_rd _ _ _ Rx2).
      destruct (numel0 vx) as [ll|e]; cbn [bind]; [|injection 1 as <- <- <-; now apply Stp_raise].
      destruct (hslice_from_ok g2 1 ll y vy (keeps_Rr _ _ _ _ K2 Rr1)) as [Rt _].
      destruct (hslice_from 1 ll y) as [t|e], (slice_from n0 1 ll vy) as [vt|e']; cbn in Rt; try contradiction; cbn [bind];
        [|injection 1 as <- <- <-; now apply Stp_raise].
      destruct (hslice_from_ok g2 1 ll mt vmt Rm) as [Rs1 _].
      destruct (hslice_from 1 ll mt) as [sub1|e], (slice_from n0 1 ll vmt) as [vsub1|e']; cbn in Rs1; try contradiction; cbn [bind];
        [|injection 1 as <- <- <-; now apply Stp_raise].
      assert (X : exists rs vrs, (if fd' then Ok sub1 else hslice_from 2 ll sub1) = rs /\
                  (if fd' then Ok vsub1 else slice_from n0 2 ll vsub1) = vrs /\ RR (Rr g2) rs vrs).
      { destruct fd'; do 2 eexists; (split; [reflexivity|]; split; [reflexivity|]); [exact Rs1|].
        destruct (hslice_from_ok g2 2 ll sub1 vsub1 Rs1) as [X _]. exact X. }
      destruct X as (rs & vrs & -> & -> & Rsub). destruct rs as [sub|e], vrs as [vsub|e']; cbn in Rsub; try contradiction; cbn [bind];
        [|injection 1 as <- <- <-; now apply Stp_raise].
      destruct (hjTmjp cg F g2 (h_kid s1) x (Some t) (HT sub) w fd' td db) as [[g3 k3] r3] eqn:E3.
      assert (Rsv : StorageBase.Rv g2 (HT sub) (VT vsub)) by exact (Ro_Rv g2 (Some sub) (Some vsub) Rsub).
      destruct (IH F A _ _ _ _ _ (Some t) (Some vt) _ _ _ _ _ _ _ _ _ (Rs_kid _ _ _ (proj1 (proj2 S2))) Rx2 Rt Rsv E3) as (K3 & R3 & Rr3 & G3 & O3).
      destruct (jTmjp F (st_kid vs1) vx (Some vt) (VT vsub) w fd' td db) as [vk3 vr3]. cbn [fst snd] in *.
      pose proof (Stp_kid _ _ _ _ _ _ _ _ _ S2 K3 R3 G3) as S3. clear IH.
      destruct r3 as [j|e], vr3 as [vj|e']; cbn in Rr3; try contradiction;
        [|injection 1 as <- <- <-; now apply Stp_raise].
      pose proof (keeps_Rr _ _ _ _ K3 Rx2) as Rx3. pose proof (keeps_Rr _ _ _ _ K3 Rt) as Rt3.
      pose proof (keeps_Rr _ _ _ _ K3 Rm) as Rm3. pose proof (hto_tensor_ok _ _ _ Rr3) as Rj.
      destruct w; [| |injection 1 as <- <- <-; apply Stp_none; auto; discriminate].
      + destruct fd'.
        * destruct (fresh_val _ _) as [g4 r4] eqn:E4. injection 1 as <- <- <-. eapply proj1, Stp_val; eauto.
          rewrite (Rr_rd _ _ _ Rm3). destruct (slice n0 1 0 ll vmt) as [a1|]; cbn [bind]; [|reflexivity].
          destruct (if td then Ok a1 else diag_embed a1) as [a2|]; cbn [bind]; [|reflexivity].
          destruct (hto_tensor j) as [jt|e], (to_tensor vj) as [vjt|e']; cbn in Rj; try contradiction; cbn [bind]; [|congruence].
          now rewrite (Rr_rd _ _ _ Rj).
        * destruct (hslice_ok g3 1 0 ll mt vmt Rm3) as [Ra3 _].
          destruct (hslice 1 0 ll mt) as [a1|e], (slice n0 1 0 ll vmt) as [va1|e'] eqn:Ev1; cbn in Ra3; try contradiction; cbn [bind];
            [|injection 1 as <- <- <-; now apply Stp_raise].
          destruct (hslice_from_ok g3 2 ll a1 va1 Ra3) as [Rb3 _].
          destruct (hslice_from 2 ll a1) as [m12|e], (slice_from n0 2 ll va1) as [vm12|e']; cbn in Rb3; try contradiction; cbn [bind];
            [|injection 1 as <- <- <-; now apply Stp_raise].
          destruct (hmjp cg F g3 (h_kid (hset_kid s1 k3)) x (Some t) (Some m12) Input) as [[g4 k4] r4] eqn:E4.
          destruct (hmjp_ok cg F A _ _ _ _ _ (Some t) (Some vt) (Some m12) (Some vm12) _ _ _ _ (Rs_kid _ _ _ (proj1 (proj2 S3)))
                      Rx3 Rt3 Rb3 E4) as (K4 & R4 & Rr4 & G4 & _).
          destruct (mjp F (st_kid (set_kid vs1 vk3)) vx (Some vt) (Some vm12) Input) as [vk4 vr4]. cbn [fst snd] in *.
          pose proof (Stp_kid _ _ _ _ _ _ _ _ _ S3 K4 R4 G4) as S4.
          destruct r4 as [[mj|]|e], vr4 as [[vmj|]|e']; cbn in Rr4; try contradiction; cbn [bind need];
            try (injection 1 as <- <- <-; now apply Stp_raise).
          pose proof (keeps_Rr _ _ _ _ K4 Rm3) as Rm4.
          destruct (hslice_from_ok g4 1 ll mt vmt Rm4) as [Rc _].
          destruct (hslice_from 1 ll mt) as [c1|e], (slice_from n0 1 ll vmt) as [vc1|e']; cbn in Rc; try contradiction; cbn [bind];
            [|injection 1 as <- <- <-; now apply Stp_raise].
          destruct (hslice_ok g4 2 0 ll c1 vc1 Rc) as [Rd _].
          destruct (hslice 2 0 ll c1) as [c2|e], (slice n0 2 0 ll vc1) as [vc2|e']; cbn in Rd; try contradiction; cbn [bind];
            [|injection 1 as <- <- <-; now apply Stp_raise].
          destruct (htranspose_ok g4 c2 vc2 Rd) as [Re _].
          destruct (htranspose12 c2) as [mT|e], (transpose12 n0 vc2) as [vmT|e']; cbn in Re; try contradiction; cbn [bind];
            [|injection 1 as <- <- <-; now apply Stp_raise].
          destruct (hmjp cg F g4 (h_kid (hset_kid (hset_kid s1 k3) k4)) x (Some t) (Some mT) Input) as [[g5 k5] r5] eqn:E5.
          destruct (hmjp_ok cg F A _ _ _ _ _ (Some t) (Some vt) (Some mT) (Some vmT) _ _ _ _ (Rs_kid _ _ _ (proj1 (proj2 S4)))
                      (keeps_Rr _ _ _ _ K4 Rx3) (keeps_Rr _ _ _ _ K4 Rt3) Re E5) as (K5 & R5 & Rr5 & G5 & _).
          destruct (mjp F (st_kid (set_kid (set_kid vs1 vk3) vk4)) vx (Some vt) (Some vmT) Input) as [vk5 vr5]. cbn [fst snd] in *.
          pose proof (Stp_kid _ _ _ _ _ _ _ _ _ S4 K5 R5 G5) as S5.
          destruct (fresh_val _ _) as [g6 r6] eqn:E6. injection 1 as <- <- <-. eapply proj1, Stp_val; eauto.
          pose proof (hto_tensor_ok _ _ _ (keeps_Rv _ _ _ _ K5 (keeps_Rv _ _ _ _ K4 Rr3))) as Rj5.
          rewrite (Rr_rd _ _ _ (keeps_Rr _ _ _ _ K5 Rr4)), (Rr_rd _ _ _ (keeps_Rr _ _ _ _ K5 Rm4)), Ev1.
          destruct r5 as [[jm|]|e], vr5 as [[vjm|]|e']; cbn in Rr5; try contradiction; cbn [bind need]; try congruence.
          rewrite (Rr_rd _ _ _ Rr5). destruct (transpose12 n0 vjm) as [vjmT|]; cbn [bind]; [|reflexivity].
          destruct (hto_tensor j) as [jt|e], (to_tensor vj) as [vjt|e']; cbn in Rj5; try contradiction; cbn [bind]; [|congruence].
          rewrite (Rr_rd _ _ _ Rj5). destruct td; bassoc.
      + injection 1 as <- <- <-. destruct S3 as (Kf & Rf & Gf). split; [auto|]. split; [auto|]. split; [exact Rr3|].
        split; [auto|]. intros q [= <-]. split; [discriminate|]. destruct (O3 _ eq_refl) as [_ O].
        apply outv_arg with (a := HN); [discriminate|]. apply outv_shift with (g1 := g2); [apply S2|cbn; tauto|].
        apply outv_arg with (a := HT sub); [discriminate|]. eapply outv_more; [exact O|].
        intros l Hl. apply locs_set in Hl as [Hl|]; [right|auto]. now apply S2.
  Qed.
End StorageTwo.
