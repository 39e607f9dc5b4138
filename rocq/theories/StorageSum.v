(** The loops with an in-place sum (sequential.py:67-82, 106-121, 183-211) in the storage model. *)
From Coq Require Import String Ascii List Arith ZArith Lia Bool FinFun.
From Verif Require Import Scalar Tensor Conv Abstract Simple LinearLayer ConvLayer PoolLayer Module.
From Verif Require Import TensorLemmas OpLemmas EinsumLemmas Storage StorageBase StorageFwd StorageLoops.
Import ListNotations.
Local Open Scope nat_scope.
Local Open Scope list_scope.

Section StorageSum.
  Context {K} `{CR : CRing K}.
  Notation T := (tensor K).
  Notation mem := (mem K).
  Implicit Types g : mem.

  (** the running sum: it may be written to, it is the one of the beginning or a new one, and nothing in L
      shares its storage *)
  Definition sumok g0 g (acc0 acc : option ref) (L : list nat) : Prop :=
    forall a, acc = Some a -> rl a < len g /\ proper g a /\
      (Some (rl a) = option_map rl acc0 \/ len g0 <= rl a) /\ ~ In (rl a) L.
  Lemma sumok_out g0 g acc0 acc L L' : sumok g0 g acc0 acc L -> incl L' L -> out (option_map rl acc) L'.
  Proof.
    intros S I l Hl E. destruct acc as [a|]; [|discriminate]. injection E as ->.
    destruct (S a eq_refl) as (_ & _ & _ & N). apply N, I, Hl.
  Qed.
  Lemma sumok_keeps A g0 g g' acc0 acc L L' : sumok g0 g acc0 acc L -> keepsx A g g' ->
    (forall a, acc = Some a -> Some (rl a) <> A) ->
    (forall l, In l L' -> In l L \/ len g <= l) -> sumok g0 g' acc0 acc L'.
  Proof.
    intros S Kp Na I a Ha. destruct (S a Ha) as (B & P & O & N). pose proof (k_len _ _ _ Kp).
    split; [lia|]. split; [|split; [auto|]].
    - eapply proper_mono; eauto. intros l [<-|[]]. eauto.
    - intros Hl. destruct (I _ Hl); [tauto|lia].
  Qed.
  Lemma sumok_none g0 g acc0 L : sumok g0 g acc0 None L.
  Proof. intros a; discriminate. Qed.

  Lemma haccumulate_ok g0 g acc0 acc vacc new vnew L : Ro g acc vacc -> Ro g new vnew ->
    sumok g0 g acc0 acc L -> sumok g0 g acc0 new L -> len g0 <= len g -> (forall l, In l L -> l < len g) ->
    exists g' r, haccumulate g acc new = (g', r) /\ keepsx (option_map rl acc) g g' /\
      RR (Ro g') r (accumulate vacc vnew) /\ (forall q, r = Ok q -> sumok g0 g' acc0 q L).
  Proof.
    intros Ra Rn Sa Sn Le B. destruct new as [n|], vnew as [vn|]; cbn in Rn; try tauto; cbn.
    - destruct acc as [a|], vacc as [va|]; cbn in Ra; try tauto; cbn.
      + destruct (Sa a eq_refl) as (Ba & Pa & Oa & Na).
        destruct (iadd_ok g a va n vn Ra Rn Pa) as (g' & r & -> & Kp & Rr & Q & Nn).
        do 2 eexists. split; [reflexivity|]. split; [auto|]. split; [auto|]. intros q Hq a' ->.
        destruct (Q a' Hq) as [O P]. pose proof (k_len _ _ _ Kp). split; [|split; [auto|split]].
        * destruct O as [->|]; lia.
        * destruct O as [->|]; [auto|right; lia].
        * destruct O as [->|]; [auto|]. intros I. apply B in I. lia.
      + do 2 eexists. split; [reflexivity|]. split; [apply keeps_refl|]. split; [exact Rn|].
        intros q [= <-]. auto.
    - do 2 eexists. split; [reflexivity|]. split; [apply keeps_refl|]. split; [exact Ra|].
      intros q [= <-]. auto.
  Qed.

  (** *** jvp and jmp *)
  Variable cg : ref -> bool.
  Notation hforward := (hforward cg).
  Notation CallO := (Call Ro hof_opt).
  Variable v : ref. Variable vv : T.
  Variable getp : nat -> nat -> res ref. Variable vgetp : nat -> nat -> res T.
  Hypothesis Hget : forall g, Rr g v vv -> forall p n,
    RR (Rr g) (getp p n) (vgetp p n) /\ (forall q, getp p n = Ok q -> rl q = rl v).
  Variable ci cw : module K -> mem -> hst -> ref -> ref -> ref -> mem * hst * res (option ref).
  Variable vci vcw : module K -> st K -> T -> T -> T -> st K * res (option T).
  Definition sum_call (c : module K -> mem -> hst -> ref -> ref -> ref -> mem * hst * res (option ref))
    (vc : module K -> st K -> T -> T -> T -> st K * res (option T)) (w : wrt) (m : module K) : Prop :=
    forall g s vs x vx y vy a va g' s' r, Rs g s vs -> Rr g x vx -> Rr g y vy -> Rr g a va ->
      c m g s x y a = (g', s', r) -> CallO g s x (HT a) w g' s' r (vc m vs vx vy va).

  Fixpoint fsum (hooks : bool) (ms : list (module K)) g (ks : list hst) (x : ref) (fm : list ref) (p : nat)
    (acc : option ref) : mem * list hst * list ref * res (option ref) :=
    match ms with
    | [] => (g, [], fm, Ok acc)
    | m :: ms =>
        let '(k, ks) := hkid_split ks in
        let '(g, k, r) := hforward m g k x in
        match r with
        | Raise e => (g, k :: ks, fm, Raise e)
        | Ok y =>
            let fm := hhook_push hooks fm y in
            let '(g, k, r) := match acc with None => (g, k, Ok None) | Some a => ci m g k x y a end in
            match (acc <- r ;; vp <- getp p (n_params m) ;; Ok (acc, vp)) with
            | Raise e => (g, k :: ks, fm, Raise e)
            | Ok (acc, vp) =>
                let '(g, k, r) := cw m g k x y vp in
                let '(g, r) := match r with Raise e => (g, Raise e) | Ok new => haccumulate g acc new end in
                match r with
                | Raise e => (g, k :: ks, fm, Raise e)
                | Ok acc => let '(g, ks, fm, r) := fsum hooks ms g ks y fm (p + n_params m) acc in
                            (g, k :: ks, fm, r)
                end
            end
        end
    end.
  Fixpoint vfsum (hooks : bool) (ms : list (module K)) (ks : list (st K)) (x : T) (fm : list T) (p : nat)
    (acc : option T) : list (st K) * list T * res (option T) :=
    match ms with
    | [] => ([], fm, Ok acc)
    | m :: ms =>
        let '(k, ks) := kid_split ks in
        let '(k, r) := forward m k x in
        match r with
        | Raise e => (k :: ks, fm, Raise e)
        | Ok y =>
            let fm := hook_push hooks fm y in
            let '(k, r) := match acc with None => (k, Ok None) | Some a => vci m k x y a end in
            match (acc <- r ;; vp <- vgetp p (n_params m) ;; Ok (acc, vp)) with
            | Raise e => (k :: ks, fm, Raise e)
            | Ok (acc, vp) =>
                let '(k, r) := vcw m k x y vp in
                match (new <- r ;; accumulate acc new) with
                | Raise e => (k :: ks, fm, Raise e)
                | Ok acc => let '(ks, fm, r) := vfsum hooks ms ks y fm (p + n_params m) acc in
                            (k :: ks, fm, r)
                end
            end
        end
    end.

  Lemma fsum_ok hooks ms : Forall (fun m => sum_call ci vci Input m /\ sum_call cw vcw Weight m) ms ->
    forall g ks vks x vx fm vfm p acc vacc g' ks' fm' r,
    Rk g ks vks -> Rr g x vx -> Rf g fm vfm -> Rr g v vv -> Ro g acc vacc ->
    sumok g g acc acc (flat_map locs ks ++ map rl fm ++ [rl x; rl v]) ->
    fsum hooks ms g ks x fm p acc = (g', ks', fm', r) ->
    keepsx (option_map rl acc) g g' /\ Rk g' ks' (fst (fst (vfsum hooks ms vks vx vfm p vacc))) /\
    Rf g' fm' (snd (fst (vfsum hooks ms vks vx vfm p vacc))) /\
    RR (Ro g') r (snd (vfsum hooks ms vks vx vfm p vacc)) /\
    grows g g' (flat_map locs ks ++ map rl fm ++ [rl x]) (flat_map locs ks' ++ map rl fm') /\
    (forall q, r = Ok q -> sumok g g' acc q (flat_map locs ks' ++ map rl fm')).
  Proof.
    induction 1 as [|m ms [Hi Hw] Hms IH];
      intros g ks vks x vx fm vfm p acc vacc g' ks' fm' r Rks Rx Rfm Rv Ra Sa; cbn [fsum vfsum].
    - injection 1 as <- <- <- <-. split; [apply keeps_refl|]. split; [apply Rk_nil|]. split; [auto|].
      split; [exact Ra|]. split.
      + intros l Hl. cbn in Hl. left. rewrite !in_app_iff. auto.
      + intros q [= <-]. eapply sumok_keeps; [exact Sa|apply (keeps_refl None)|discriminate|].
        intros l Hl. cbn in Hl. left. rewrite !in_app_iff. auto.
    - pose proof (locs_split ks) as LS.
      destruct (Rk_split _ _ _ Rks) as [Rk0 Rks0].
      destruct (hkid_split ks) as [k ks0]. destruct (kid_split vks) as [vk vks0]. cbn [fst snd] in *.
      destruct (hforward m g k x) as [[g1 k1] r1] eqn:E1.
      destruct (hforward_ok cg m _ _ _ _ _ _ _ _ Rk0 Rx E1) as (K1 & Rk1 & Rr1 & G1 & Y1).
      destruct (forward m vk vx) as [vk1 vr1]. cbn [fst snd] in *.
      pose proof (k_len _ _ _ K1) as Le1.
      assert (G1' : grows g g1 (flat_map locs ks ++ map rl fm ++ [rl x]) (flat_map locs (k1 :: ks0) ++ map rl fm)).
      { intros l Hl. cbn [flat_map] in Hl. rewrite !in_app_iff in Hl. rewrite !in_app_iff, <- LS.
        destruct Hl as [[Hl|]|]; try tauto. apply G1 in Hl as [Hl|]; [|auto].
        rewrite in_app_iff in Hl. cbn in *. tauto. }
      destruct r1 as [y|e], vr1 as [vy|e']; cbn in Rr1; try tauto.
      2: { injection 1 as <- <- <- <-. cbn [fst snd]. split; [now apply keeps_weak|].
           split; [apply Rk_cons; auto; eapply keeps_Rk; eauto|]. split; [eapply keeps_Rf; eauto|].
           split; [exact Rr1|]. split; [exact G1'|discriminate]. }
      specialize (Y1 y eq_refl).
      assert (Bk : forall l, In l (locs k1) -> l < len g1) by apply Rk1.
      assert (Bs : forall l, In l (flat_map locs ks0) -> l < len g) by apply Rks0.
      assert (Bf : forall l, In l (map rl fm) -> l < len g) by apply Rfm.
      assert (Bx : rl x < len g) by apply Rx. assert (By : rl y < len g1) by apply Rr1.
      assert (Bv : rl v < len g) by apply Rv.
      assert (Rf1 : Rf g1 (hhook_push hooks fm y) (hook_push hooks vfm vy)).
      { apply Rf_push; [exact (keeps_Rf _ _ _ _ K1 Rfm)|exact Rr1]. }
      assert (Bf1 : forall l, In l (map rl (hhook_push hooks fm y)) -> l < len g1) by apply Rf1.
      set (fm1 := hhook_push hooks fm y) in *. set (vfm1 := hook_push hooks vfm vy) in *.
      set (base := flat_map locs ks0 ++ map rl fm1 ++ [rl x; rl y; rl v]).
      assert (Bb : forall l, In l base -> l < len g1).
      { intros l Hl. unfold base in Hl. rewrite !in_app_iff in Hl. cbn in Hl.
        destruct Hl as [Hl|[Hl|[<-|[<-|[<-|[]]]]]]; auto; try lia. specialize (Bs _ Hl); lia. }
      assert (Gb : forall l, In l base -> In l (flat_map locs ks ++ map rl fm ++ [rl x; rl v]) \/ len g <= l).
      { intros l Hl. unfold base in Hl. rewrite !in_app_iff in Hl. cbn in Hl. rewrite !in_app_iff, <- LS.
        assert (X : rl y = l -> In l [rl x; rl v] \/ len g <= l).
        { intros <-. destruct Y1 as [->|]; cbn; [auto|right; lia]. }
        destruct Hl as [Hl|[Hl|[Hl|[Hl|[Hl|[]]]]]]; cbn; try tauto.
        all: try (destruct (X Hl); cbn in *; tauto).
        unfold fm1 in Hl. apply locs_push in Hl as [| ->]; [tauto|]. destruct (X eq_refl); cbn in *; tauto. }
      assert (S1 : sumok g g1 acc acc (locs k1 ++ base)).
      { eapply sumok_keeps; [exact Sa|exact K1|discriminate|].
        intros l Hl. apply in_app_or in Hl as [Hl|Hl]; [|auto].
        apply G1 in Hl as [Hl|]; [|right; lia]. rewrite !in_app_iff, <- LS. rewrite in_app_iff in Hl. cbn in *. tauto. }
      (* the product with the running sum *)
      assert (C2 : exists g2 k2 r2 vk2 vr2,
        match acc with None => (g1, k1, Ok None) | Some a => ci m g1 k1 x y a end = (g2, k2, r2) /\
        match vacc with None => (vk1, Ok None) | Some a => vci m vk1 vx vy a end = (vk2, vr2) /\
        keeps g1 g2 /\ Rs g2 k2 vk2 /\ RR (Ro g2) r2 vr2 /\ grows g1 g2 (locs k1 ++ [rl x]) (locs k2) /\
        (forall q, r2 = Ok q -> sumok g g2 acc q (locs k2 ++ base))).
      { destruct acc as [a|], vacc as [va|]; cbn in Ra; try tauto.
        - destruct (ci m g1 k1 x y a) as [[g2 k2] r2] eqn:E2.
          destruct (Hi _ _ _ _ _ _ _ _ _ _ _ _ Rk1 (keeps_Rr _ _ _ _ K1 Rx) Rr1 (keeps_Rr _ _ _ _ K1 Ra) E2)
            as (K2 & Rk2 & Rr2 & G2 & O2).
          destruct (vci m vk1 vx vy va) as [vk2 vr2]. cbn [fst snd] in *.
          do 5 eexists. split; [reflexivity|]. split; [reflexivity|]. split; [auto|]. split; [auto|].
          split; [auto|]. split; [auto|]. intros q Hq b ->. destruct (O2 _ Hq) as [_ [O P]].
          destruct (S1 a eq_refl) as (Ba & Pa & Oa & Na). pose proof (k_len _ _ _ K2).
          assert (Pb : proper g2 b).
          { cbn in P. destruct P as [|[_ [|(a0 & Ea & P)]]]; [auto|discriminate|]. injection Ea as <-. auto. }
          destruct (O (rl b)) as [[B N]|[_ [E|[]]]]; [now left| |].
          + split; [lia|]. split; [auto|]. split; [right; lia|]. rewrite in_app_iff. intros [|I]; [auto|].
            apply Bb in I. lia.
          + rewrite <- E in *. split; [lia|]. split; [auto|]. split; [auto|].
            rewrite in_app_iff. intros [I|I]; [|apply Na, in_or_app; auto].
            apply G2 in I as [I|I]; [|lia]. apply Na. rewrite in_app_iff in *. unfold base.
            rewrite !in_app_iff. cbn in *. tauto.
        - do 5 eexists. split; [reflexivity|]. split; [reflexivity|]. split; [apply keeps_refl|].
          split; [exact Rk1|]. split; [exact I|]. split; [intros l Hl; left; apply in_or_app; auto|].
          intros q [= <-]. apply sumok_none. }
      destruct C2 as (g2 & k2 & r2 & vk2 & vr2 & -> & -> & K2 & Rk2 & Rr2 & G2 & S2).
      pose proof (k_len _ _ _ K2) as Le2. pose proof (keeps_trans _ _ _ _ K1 K2) as K12.
      assert (Gk2 : grows g g2 (locs k ++ [rl x]) (locs k2)).
      { intros l Hl. apply G2 in Hl as [Hl|]; [|right; lia]. apply in_app_or in Hl as [Hl|Hl];
          [|left; apply in_or_app; auto]. apply G1 in Hl as [|]; [auto|right; lia]. }
      assert (Gfin : forall g9 k9, len g1 <= len g9 -> grows g g9 (locs k ++ [rl x]) (locs k9) ->
                grows g g9 (flat_map locs ks ++ map rl fm ++ [rl x]) (flat_map locs (k9 :: ks0) ++ map rl fm1)).
      { intros g9 k9 L9 G9 l Hl. cbn [flat_map] in Hl. rewrite !in_app_iff in Hl. rewrite !in_app_iff, <- LS.
        destruct Hl as [[Hl|]|Hl]; try tauto.
        - apply G9 in Hl as [Hl|]; [|right; lia]. rewrite in_app_iff in Hl. cbn in *. tauto.
        - unfold fm1 in Hl. apply locs_push in Hl as [| ->]; [tauto|].
          destruct Y1 as [->|]; [left; cbn; tauto|right; lia]. }
      destruct r2 as [acc2|e], vr2 as [vacc2|e']; cbn in Rr2; try tauto; cbn [bind].
      2: { injection 1 as <- <- <- <-. cbn [fst snd]. split; [now apply keeps_weak|].
           split; [apply Rk_cons; auto; exact (keeps_Rk _ _ _ _ K12 Rks0)|].
           split; [exact (keeps_Rf _ _ _ _ K2 Rf1)|]. split; [exact Rr2|]. split; [apply Gfin; [lia|auto]|discriminate]. }
      specialize (S2 _ eq_refl).
      destruct (Hget g2 (keeps_Rr _ _ _ _ K12 Rv) p (n_params m)) as [Rp Lp].
      destruct (getp p (n_params m)) as [vp|e], (vgetp p (n_params m)) as [vvp|e']; cbn in Rp; try tauto; cbn [bind].
      2: { injection 1 as <- <- <- <-. cbn [fst snd]. split; [now apply keeps_weak|].
           split; [apply Rk_cons; auto; exact (keeps_Rk _ _ _ _ K12 Rks0)|].
           split; [exact (keeps_Rf _ _ _ _ K2 Rf1)|]. split; [exact Rp|]. split; [apply Gfin; [lia|auto]|discriminate]. }
      specialize (Lp _ eq_refl).
      destruct (cw m g2 k2 x y vp) as [[g3 k3] r3] eqn:E3.
      destruct (Hw _ _ _ _ _ _ _ _ _ _ _ _ Rk2 (keeps_Rr _ _ _ _ K12 Rx) (keeps_Rr _ _ _ _ K2 Rr1) Rp E3)
        as (K3 & Rk3 & Rr3 & G3 & O3).
      destruct (vcw m vk2 vx vy vvp) as [vk3 vr3]. cbn [fst snd] in *.
      pose proof (k_len _ _ _ K3) as Le3. pose proof (keeps_trans _ _ _ _ K12 K3) as K13.
      assert (Gk3 : grows g g3 (locs k ++ [rl x]) (locs k3)).
      { intros l Hl. apply G3 in Hl as [Hl|]; [|right; lia]. apply in_app_or in Hl as [Hl|Hl];
          [|left; apply in_or_app; auto]. apply Gk2 in Hl as [|]; [auto|right; lia]. }
      assert (Bk3 : forall l, In l (locs k3) -> l < len g3) by apply Rk3.
      assert (S3 : sumok g g3 acc acc2 (locs k3 ++ base)).
      { eapply sumok_keeps; [exact S2|exact K3|discriminate|]. intros l Hl.
        apply in_app_or in Hl as [Hl|Hl]; [|left; apply in_or_app; auto].
        apply G3 in Hl as [Hl|]; [|right; lia]. left. rewrite in_app_iff in *. unfold base.
        rewrite !in_app_iff. cbn in *. tauto. }
      assert (B3 : forall l, In l (locs k3 ++ base) -> l < len g3).
      { intros l Hl. apply in_app_or in Hl as [|Hl]; auto. apply Bb in Hl. lia. }
      destruct r3 as [new|e], vr3 as [vnew|e']; cbn in Rr3; try tauto; cbn [bind].
      2: { injection 1 as <- <- <- <-. cbn [fst snd]. split; [now apply keeps_weak|].
           split; [apply Rk_cons; auto; exact (keeps_Rk _ _ _ _ K13 Rks0)|].
           split; [exact (keeps_Rf _ _ _ _ K3 (keeps_Rf _ _ _ _ K2 Rf1))|]. split; [exact Rr3|].
           split; [apply Gfin; [lia|auto]|discriminate]. }
      assert (S3n : sumok g g3 acc new (locs k3 ++ base)).
      { intros n ->. destruct (O3 _ eq_refl) as [_ [O P]]. cbn in P.
        destruct (O (rl n)) as [[B N]|[? _]]; [now left| |discriminate].
        split; [lia|]. split; [destruct P as [|[? _]]; [auto|discriminate]|]. split; [right; lia|].
        rewrite in_app_iff. intros [|I]; [auto|]. apply Bb in I. lia. }
      destruct (haccumulate_ok g g3 acc acc2 vacc2 new vnew (locs k3 ++ base)) as (g4 & r4 & -> & K4 & Rr4 & S4);
        auto; [exact (keeps_Ro _ _ _ _ K3 Rr2)|lia|].
      pose proof (k_len _ _ _ K4) as Le4.
      assert (Out4 : forall L, incl L (locs k3 ++ base) -> out (option_map rl acc2) L).
      { intros L I. eapply sumok_out; eauto. }
      assert (I1 : incl (locs k3) (locs k3 ++ base)) by (intros l; rewrite in_app_iff; auto).
      assert (I2 : incl (flat_map locs ks0) (locs k3 ++ base)).
      { intros l. unfold base. rewrite !in_app_iff; auto. }
      assert (I3 : incl (map rl fm1) (locs k3 ++ base)).
      { intros l. unfold base. rewrite !in_app_iff; auto. }
      assert (I4 : incl [rl y] (locs k3 ++ base)).
      { intros l. unfold base. rewrite !in_app_iff; cbn; tauto. }
      assert (I5 : incl [rl v] (locs k3 ++ base)).
      { intros l. unfold base. rewrite !in_app_iff; cbn; tauto. }
      assert (Rk4 : Rs g4 k3 vk3) by exact (Rs_mono _ _ _ _ _ K4 (Out4 _ I1) Rk3).
      assert (Rks4 : Rk g4 ks0 vks0) by exact (Rk_mono _ _ _ _ _ K4 (Out4 _ I2) (keeps_Rk _ _ _ _ K13 Rks0)).
      assert (Rf4 : Rf g4 fm1 vfm1)
        by exact (Rf_mono _ _ _ _ _ K4 (Out4 _ I3) (keeps_Rf _ _ _ _ K3 (keeps_Rf _ _ _ _ K2 Rf1))).
      assert (Ry4 : Rr g4 y vy)
        by exact (Rr_mono _ _ _ _ _ K4 (Out4 _ I4) (keeps_Rr _ _ _ _ K3 (keeps_Rr _ _ _ _ K2 Rr1))).
      assert (Rv4 : Rr g4 v vv) by exact (Rr_mono _ _ _ _ _ K4 (Out4 _ I5) (keeps_Rr _ _ _ _ K13 Rv)).
      assert (K14 : keepsx (option_map rl acc) g g4).
      { eapply keeps_trans_new; [apply keeps_weak; exact K13|exact K4|]. intros l Hl.
        destruct acc2 as [a|]; [|discriminate]. injection Hl as <-.
        destruct (S3 a eq_refl) as (_ & _ & [O|O] & _); auto. }
      assert (Gk4 : grows g g4 (locs k ++ [rl x]) (locs k3)).
      { intros l Hl. apply Gk3 in Hl as [|]; [auto|right; lia]. }
      destruct r4 as [acc4|e], (accumulate vacc2 vnew) as [vacc4|e']; cbn in Rr4; try tauto.
      2: { injection 1 as <- <- <- <-. cbn [fst snd]. split; [exact K14|].
           split; [now apply Rk_cons|]. split; [auto|]. split; [exact Rr4|].
           split; [apply Gfin; [lia|auto]|discriminate]. }
      specialize (S4 _ eq_refl).
      destruct (fsum hooks ms g4 ks0 y fm1 (p + n_params m) acc4) as [[[g5 ks5] fm5] r5] eqn:E5.
      injection 1 as <- <- <- <-.
      assert (Bk4 : forall l, In l (locs k3) -> l < len g4) by apply Rk4.
      assert (S4' : sumok g4 g4 acc4 acc4 (flat_map locs ks0 ++ map rl fm1 ++ [rl y; rl v])).
      { intros a Ha. destruct (S4 a Ha) as (B & P & _ & N). split; [auto|]. split; [auto|].
        split; [left; now rewrite Ha|]. intros I. apply N. unfold base. rewrite !in_app_iff in *. cbn in *. tauto. }
      destruct (IH _ _ _ _ _ _ _ _ _ _ _ _ _ _ Rks4 Ry4 Rf4 Rv4 Rr4 S4' E5) as (K5 & Rk5 & Rf5 & Rr5 & G5 & S5).
      destruct (vfsum hooks ms vks0 vy vfm1 (p + n_params m) vacc4) as [[vks5 vfm5] vr5]. cbn [fst snd] in *.
      pose proof (k_len _ _ _ K5) as Le5.
      split; [|split; [|split; [auto|split; [auto|split]]]].
      + eapply keeps_trans_new; [exact K14|exact K5|]. intros l Hl.
        destruct acc4 as [a|]; [|discriminate]. injection Hl as <-.
        destruct (S4 a eq_refl) as (_ & _ & [O|O] & _); auto.
      + apply Rk_cons; auto. eapply Rs_mono; [exact K5| |exact Rk4].
        intros l Hl E. destruct acc4 as [a|]; [|discriminate]. injection E as ->.
        destruct (S4 a eq_refl) as (_ & _ & _ & N). apply N, I1, Hl.
      + intros l Hl. cbn [flat_map] in Hl. rewrite <- app_assoc, in_app_iff in Hl. destruct Hl as [Hl|Hl].
        * apply Gk4 in Hl as [Hl|]; [|right; lia]. rewrite !in_app_iff, <- LS. rewrite in_app_iff in Hl.
          cbn in *. tauto.
        * apply G5 in Hl as [Hl|]; [|right; lia]. rewrite !in_app_iff in Hl. rewrite !in_app_iff, <- LS.
          destruct Hl as [|[Hl|[<-|[]]]]; [tauto| |].
          -- unfold fm1 in Hl. apply locs_push in Hl as [| ->]; [tauto|].
             destruct Y1 as [->|]; [left; cbn; tauto|right; lia].
          -- destruct Y1 as [->|]; [left; cbn; tauto|right; lia].
      + intros q Hq a Ha. destruct (S5 q Hq a Ha) as (B & P & O & N). split; [auto|]. split; [auto|].
        assert (X : (Some (rl a) = option_map rl acc \/ len g <= rl a) /\ ~ In (rl a) (locs k3)).
        { destruct O as [O|O].
          - destruct acc4 as [a4|]; [|discriminate]. injection O as O.
            destruct (S4 a4 eq_refl) as (_ & _ & O' & N'). rewrite <- O in *. split; [auto|].
            intros I. apply N', I1, I.
          - split; [right; lia|]. intros I. apply Bk4 in I. lia. }
        destruct X as [X1 X2]. split; [auto|]. cbn [flat_map]. rewrite <- app_assoc, in_app_iff. tauto.
  Qed.
End StorageSum.
