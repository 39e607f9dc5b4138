(** The storage model computes what Module.v computes, and the storages that exist before a call are not
    changed: forward and the steps every method is made of. *)
From Coq Require Import String Ascii List Arith ZArith Lia Bool FinFun.
From Verif Require Import Scalar Tensor Conv Abstract Simple LinearLayer ConvLayer PoolLayer Module.
From Verif Require Import TensorLemmas OpLemmas EinsumLemmas Storage StorageBase ReshapeZ.
Import ListNotations.
Local Open Scope nat_scope.
Local Open Scope list_scope.

#[global] Arguments alloc : simpl never.
#[global] Arguments rd : simpl never.
#[global] Arguments write : simpl never.
#[global] Arguments len : simpl never.
#[global] Arguments er : simpl nomatch.

Section StorageFwd.
  Context {K} `{CR : CRing K}.
  Notation T := (tensor K).
  Notation mem := (mem K).
  Implicit Types g : mem.
  Variable cg : ref -> bool.
  Notation hforward := (hforward cg).

  (** what is new in [new] was allocated between g and g' *)
  Definition grows g g' (old new : list nat) : Prop :=
    forall l, In l new -> In l old \/ len g <= l < len g'.
  (** where the storages of a result come from: new ones that the state does not refer to, or those of the
      argument the method was given; and whether an in-place operation on it is allowed *)
  Definition outv g (a : hvalue) (w : wrt) g' (L : list nat) (v : hvalue) : Prop :=
    (forall l, In l (vlocs v) -> (len g <= l < len g' /\ ~ In l L) \/ (w = Input /\ In l (vlocs a))) /\
    match v with
    | HT q => proper g' q \/ (w = Input /\ (a = HN \/ exists a0, a = HT a0 /\ (proper g a0 -> proper g' q)))
    | _ => True
    end.

  Lemma outv_none g a w g' L : outv g a w g' L HN.
  Proof. split; cbn; auto; tauto. Qed.
  Lemma outv_fresh g g1 a w L t : len g <= len g1 -> (forall l, In l L -> l < len g1) ->
    outv g a w (fst (alloc g1 t)) L (HT (snd (alloc g1 t))).
  Proof.
    intros Le B. split; [|left; apply proper_alloc]. cbn. intros l [<-|[]]. left.
    rewrite len_alloc. change (rl (snd (alloc g1 t))) with (len g1). split; [lia|]. intros I. apply B in I. lia.
  Qed.

  (** *** Steps *)
  Lemma Rr_alloc g t : Rr (fst (alloc g t)) (snd (alloc g t)) t.
  Proof. split; [apply rd_alloc|]. rewrite len_alloc. change (rl (snd (alloc g t))) with (len g). lia. Qed.
  Lemma fresh_ok g r g' q : fresh g r = (g', q) -> keeps g g' /\ RR (Rr g') q r /\
    (forall o, q = Ok o -> rl o = len g /\ len g < len g' /\ proper g' o).
  Proof.
    unfold fresh. destruct r as [t|e].
    - destruct (alloc g t) as [g1 q1] eqn:E. injection 1 as <- <-.
      pose proof (keeps_alloc g t) as Kp. pose proof (Rr_alloc g t) as R. pose proof (proper_alloc g t) as P.
      pose proof (len_alloc g t) as L. rewrite E in *. cbn in *. split; [auto|]. split; [auto|].
      intros o [= <-]. assert (rl q1 = len g) by (apply (f_equal snd) in E; cbn in E; now subst).
      split; [auto|]. split; [lia|auto].
    - injection 1 as <- <-. split; [apply keeps_refl|]. split; [reflexivity|]. discriminate.
  Qed.
  Lemma fresh_opt_ok g r g' q : fresh_opt g r = (g', q) -> keeps g g' /\ RR (Ro g') q r /\
    (forall o, q = Ok o -> forall g0 a w L, len g0 <= len g -> (forall l, In l L -> l < len g) ->
       outv g0 a w g' L (hof_opt o)).
  Proof.
    unfold fresh_opt. destruct r as [[t|]|e].
    - destruct (alloc g t) as [g1 q1] eqn:E. injection 1 as <- <-.
      pose proof (keeps_alloc g t) as Kp. pose proof (Rr_alloc g t) as R.
      pose proof (fun g0 a w L => outv_fresh g0 g a w L t) as O. rewrite E in *. cbn in *.
      split; [auto|]. split; [auto|]. intros o [= <-]. auto.
    - injection 1 as <- <-. split; [apply keeps_refl|]. split; [reflexivity|].
      intros o [= <-] *. intros _ _. apply outv_none.
    - injection 1 as <- <-. split; [apply keeps_refl|]. split; [reflexivity|]. discriminate.
  Qed.
  Lemma fresh_par_ok g r g' q : fresh_par g r = (g', q) -> keeps g g' /\ RR (Ro g') q r /\
    (forall o, q = Ok o -> forall g0 L, len g0 <= len g -> (forall l, In l L -> l < len g) ->
       outv g0 HN Input g' L (hof_opt o)).
  Proof.
    unfold fresh_par. destruct r as [[t|]|e].
    - destruct (alloc g t) as [g1 q1] eqn:E. injection 1 as <- <-.
      pose proof (keeps_alloc g t) as Kp. pose proof (Rr_alloc g t) as R.
      pose proof (fun g0 L => outv_fresh g0 g HN Input L t) as O. rewrite E in *. cbn in *.
      split; [auto|]. split; [apply R|]. intros o [= <-] g0 L H1 H2. destruct (O g0 L H1 H2) as [O1 O2].
      split; [exact O1|]. cbn. right. auto.
    - injection 1 as <- <-. split; [apply keeps_refl|]. split; [reflexivity|].
      intros o [= <-] *. intros _ _. apply outv_none.
    - injection 1 as <- <-. split; [apply keeps_refl|]. split; [reflexivity|]. discriminate.
  Qed.

  Lemma with_ix_ok g r t i (v : res T) : Rr g r t ->
    v = (i <- i ;; Ok (tmap (look (store g (rl r))) i)) ->
    RR (Rr g) (with_ix r i) v /\ (forall q, with_ix r i = Ok q -> rl q = rl r).
  Proof.
    intros [_ L] ->. unfold with_ix. destruct i as [i|e]; cbn; split; auto; try discriminate.
    - split; auto.
    - intros q [= <-]. reflexivity.
  Qed.
  Lemma hslice_ok g k a e r t : Rr g r t ->
    RR (Rr g) (hslice k a e r) (slice n0 k a e t) /\ (forall q, hslice k a e r = Ok q -> rl q = rl r).
  Proof. intros R. eapply with_ix_ok; eauto. destruct R as [<- _]. apply slice_tmap. Qed.
  Lemma hslice_from_ok g k a r t : Rr g r t ->
    RR (Rr g) (hslice_from k a r) (slice_from n0 k a t) /\ (forall q, hslice_from k a r = Ok q -> rl q = rl r).
  Proof. intros R. eapply with_ix_ok; eauto. destruct R as [<- _]. apply slice_tmap. Qed.
  Lemma htranspose_ok g r t : Rr g r t ->
    RR (Rr g) (htranspose12 r) (transpose12 n0 t) /\ (forall q, htranspose12 r = Ok q -> rl q = rl r).
  Proof. intros R. eapply with_ix_ok; eauto. destruct R as [<- _]. apply transpose_tmap. Qed.

  Lemma hval_tail_ok g l v t : Ro g v t ->
    RR (Ro g) (hval_tail l v) (val_tail l t).
  Proof.
    clear cg. destruct v as [r|], t as [t|]; cbn; try tauto. intros R.
    destruct (hslice_from_ok g 1 l r t R) as [R' _].
    destruct (hslice_from 1 l r), (slice_from n0 1 l t); cbn in *; auto.
  Qed.

  Lemma iadd_ok g a ta b tb : Rr g a ta -> Rr g b tb -> proper g a ->
    exists g' r, iadd g a b = (g', r) /\ keepsx (Some (rl a)) g g' /\ RR (Ro g') r (some (tadd_ ta tb)) /\
      (forall q, r = Ok (Some q) -> (rl q = rl a \/ len g <= rl q < len g') /\ proper g' q) /\ r <> Ok None.
  Proof.
    intros [<- La] [<- Lb] P. unfold iadd. destruct tadd_ as [t|e] eqn:E; cbn.
    - apply tadd_shape in E as [Sh W]. destruct (wfb (rix a)) eqn:Wa.
      + rewrite nodupb_ok by apply P. do 2 eexists. split; [reflexivity|].
        split; [apply write_keeps, P|]. split; [|split; [|discriminate]].
        * split; [|now rewrite write_len]. apply write_rd; auto. apply Nat.eqb_eq in Wa.
          rewrite W, Wa, Sh. reflexivity.
        * intros q [= <-]. split; auto. now apply (write_proper g a (data t)).
      + destruct (alloc g t) as [g1 q1] eqn:E. do 2 eexists. split; [reflexivity|].
        pose proof (keeps_alloc g t) as Kp. pose proof (Rr_alloc g t) as R. pose proof (proper_alloc g t) as Pr.
        pose proof (len_alloc g t) as L. rewrite E in *. cbn in *. split; [now apply keeps_weak|].
        split; [auto|]. split; [|discriminate]. intros q [= <-]. split; auto. right.
        assert (rl q1 = len g) by (apply (f_equal snd) in E; cbn in E; now subst). lia.
    - do 2 eexists. split; [reflexivity|]. split; [apply keeps_refl|]. split; [reflexivity|].
      split; discriminate.
  Qed.

  (** *** forward *)
  Lemma flat_data b (t u : T) : flat b t = Ok u -> data u = data t.
  Proof.
    unfold flat, reshape_m1. destruct Nat.eqb; [discriminate|]. destruct Nat.eqb; [|discriminate].
    now injection 1 as <-.
  Qed.
  Lemma reshape_data s (t u : T) : reshape s t = Ok u -> data u = data t.
  Proof. unfold reshape. destruct Nat.eqb; [|discriminate]. now injection 1 as <-. Qed.
  Lemma hreshape_ok g x tx r g' q : Rr g x tx -> (forall t, r = Ok t -> data t = data tx) ->
    hreshape cg g x r = (g', q) -> keeps g g' /\ RR (Rr g') q r /\
    (forall y, q = Ok y -> rl y = rl x \/ len g <= rl y < len g').
  Proof.
    intros [<- L] D. unfold hreshape. destruct r as [t|e].
    - destruct (cg x).
      + injection 1 as <- <-. split; [apply keeps_refl|]. split.
        * split; auto. unfold rd, tmap; cbn.
          specialize (D t eq_refl). unfold rd, tmap in D; cbn in D. rewrite <- D. now destruct t.
        * intros y [= <-]. auto.
      + intros E. apply fresh_ok in E as (A & B & C). repeat split; auto; try apply A.
        intros y ->. specialize (C y eq_refl). lia.
    - injection 1 as <- <-. split; [apply keeps_refl|]. split; [reflexivity|]. discriminate.
  Qed.

  (** the specification of forward: the result holds the value of Module.v, the old storages are unchanged,
      and the state refers to old ones, to the input, and to new ones *)
  Definition fwd_spec (m : module K) : Prop := forall g s vs x vx g' s' r,
    Rs g s vs -> Rr g x vx -> hforward m g s x = (g', s', r) ->
    keeps g g' /\ Rs g' s' (fst (forward m vs vx)) /\ RR (Rr g') r (snd (forward m vs vx)) /\
    grows g g' (locs s ++ [rl x]) (locs s') /\
    (forall y, r = Ok y -> rl y = rl x \/ len g <= rl y < len g').

  Lemma hleaf_forward_ok l g x vx g' r : Rr g x vx -> hleaf_forward cg g l x = (g', r) ->
    keeps g g' /\ RR (Rr g') r (leaf_forward l vx) /\ (forall y, r = Ok y -> rl y = rl x \/ len g <= rl y < len g').
  Proof.
    intros R. pose proof R as [<- L].
    assert (D : forall q, fresh g (leaf_forward l (rd g x)) = (g', q) -> q = r -> keeps g g' /\
       RR (Rr g') r (leaf_forward l (rd g x)) /\ (forall y, r = Ok y -> rl y = rl x \/ len g <= rl y < len g')).
    { intros q E <-. apply fresh_ok in E as (A & B & C). repeat split; auto; try apply A.
      intros y ->. specialize (C y eq_refl). lia. }
    destruct l; cbn [hleaf_forward]; try (intros E; now eapply D; eauto); clear D.
    - apply (hreshape_ok g x (rd g x)); auto. cbn. unfold flatten_forward. intros t.
      destruct (size 0 _); cbn; [|discriminate]. apply flat_data.
    - apply (hreshape_ok g x (rd g x)); auto. cbn. unfold reshape_forward. intros t.
      destruct (size 0 _); cbn; [|discriminate]. intros E. now apply reshape_z_data in E.
  Qed.

  Lemma keeps_Rs g g' s v : keeps g g' -> Rs g s v -> Rs g' s v.
  Proof. intros ? ?; eapply Rs_mono; eauto using out_none. Qed.
  Lemma keeps_Rk g g' s v : keeps g g' -> Rk g s v -> Rk g' s v.
  Proof. intros ? ?; eapply Rk_mono; eauto using out_none. Qed.
  Lemma keeps_Rf g g' s v : keeps g g' -> Rf g s v -> Rf g' s v.
  Proof. intros ? ?; eapply Rf_mono; eauto using out_none. Qed.
  Lemma keeps_Rr g g' s v : keeps g g' -> Rr g s v -> Rr g' s v.
  Proof. intros ? ?; eapply Rr_mono; eauto using out_none. Qed.
  Lemma keeps_Ro g g' s v : keeps g g' -> Ro g s v -> Ro g' s v.
  Proof. intros ? ?; eapply Ro_mono; eauto using out_none. Qed.
  Lemma keeps_Rv g g' s v : keeps g g' -> Rv g s v -> Rv g' s v.
  Proof. intros ? ?; eapply Rv_mono; eauto using out_none. Qed.
  Lemma keeps_Rvs g g' s v : keeps g g' -> Rvs g s v -> Rvs g' s v.
  Proof. intros ? ?; eapply Rvs_mono; eauto using out_none. Qed.

  Lemma hseq_forward_ok hooks ms : Forall fwd_spec ms -> forall g ks vks x vx fm vfm g' ks' fm' r,
    Rk g ks vks -> Rr g x vx -> Rf g fm vfm ->
    hseq_forward hforward hooks ms g ks x fm = (g', ks', fm', r) ->
    keeps g g' /\ Rk g' ks' (fst (fst (seq_forward forward hooks ms vks vx vfm))) /\
    Rf g' fm' (snd (fst (seq_forward forward hooks ms vks vx vfm))) /\
    RR (Rr g') r (snd (seq_forward forward hooks ms vks vx vfm)) /\
    grows g g' (flat_map locs ks ++ map rl fm ++ [rl x]) (flat_map locs ks' ++ map rl fm') /\
    (forall y, r = Ok y -> rl y = rl x \/ len g <= rl y < len g').
  Proof.
    induction 1 as [|m ms Hm Hms IH]; intros g ks vks x vx fm vfm g' ks' fm' r Rks Rx Rfm; cbn.
    - injection 1 as <- <- <- <-. split; [apply keeps_refl|]. split; [apply Rk_nil|]. split; [auto|].
      split; [exact Rx|]. split.
      + intros l Hl. cbn in Hl. left. rewrite !in_app_iff. auto.
      + intros y [= <-]. auto.
    - pose proof (locs_split ks) as LS.
      destruct (Rk_split _ _ _ Rks) as [Rk0 Rks0].
      destruct (hkid_split ks) as [k ks0]. destruct (kid_split vks) as [vk vks0]. cbn [fst snd] in *.
      destruct (hforward m g k x) as [[g1 k1] r1] eqn:E1.
      destruct (Hm _ _ _ _ _ _ _ _ Rk0 Rx E1) as (Kp & Rk1 & Rr1 & G1 & Y1).
      destruct (forward m vk vx) as [vk1 vr1]. cbn [fst snd] in *.
      destruct r1 as [y|e], vr1 as [vy|e']; cbn in Rr1; try tauto.
      + destruct (hseq_forward hforward hooks ms g1 ks0 y (hhook_push hooks fm y)) as [[[g2 ks2] fm2] r2] eqn:E2.
        injection 1 as <- <- <- <-.
        eapply IH in E2 as (Kp2 & Rk2 & Rf2 & Rr2 & G2 & Y2);
          [|eapply keeps_Rk; eauto|exact Rr1|apply Rf_push; [eapply keeps_Rf; eauto|exact Rr1]].
        destruct (seq_forward forward hooks ms vks0 vy (hook_push hooks vfm vy)) as [[vks2 vfm2] vr2].
        cbn [fst snd] in *. pose proof (k_len _ _ _ Kp). pose proof (k_len _ _ _ Kp2).
        specialize (Y1 y eq_refl).
        split; [eapply keeps_trans; eauto|]. split; [apply Rk_cons; auto; eapply keeps_Rs; eauto|].
        split; [auto|]. split; [auto|]. split.
        * intros l Hl. cbn [flat_map] in Hl. rewrite <- app_assoc, in_app_iff in Hl. destruct Hl as [Hl|Hl].
          -- apply G1 in Hl as [Hl|]; [|right; lia]. rewrite in_app_iff in Hl. cbn in Hl.
             rewrite !in_app_iff. rewrite <- LS. cbn. tauto.
          -- apply G2 in Hl as [Hl|]; [|right; lia]. rewrite !in_app_iff in Hl. cbn in Hl.
             destruct Hl as [Hl|[Hl|[Hl|[]]]].
             ++ left. rewrite in_app_iff, <- LS. tauto.
             ++ apply locs_push in Hl as [Hl| ->]; [left; rewrite !in_app_iff; tauto|].
                destruct Y1 as [->|]; [left; rewrite !in_app_iff; cbn; tauto|right; lia].
             ++ subst l. destruct Y1 as [->|]; [left; rewrite !in_app_iff; cbn; tauto|right; lia].
        * intros z Hz. destruct (Y2 z Hz) as [->|]; [|right; lia]. destruct Y1 as [->|]; auto. right; lia.
      + injection 1 as <- <- <- <-. cbn [fst snd].
        split; [auto|]. split; [apply Rk_cons; auto; eapply keeps_Rk; eauto|].
        split; [eapply keeps_Rf; eauto|]. split; [exact Rr1|]. split; [|discriminate].
        intros l Hl. cbn [flat_map] in Hl. rewrite !in_app_iff in Hl. rewrite !in_app_iff, <- LS.
        destruct Hl as [[Hl|Hl]|Hl]; try tauto.
        apply G1 in Hl as [Hl|]; [|right; lia]. rewrite in_app_iff in Hl. cbn in *. tauto.
  Qed.

  Lemma hforward_ok : forall m, fwd_spec m.
  Proof.
    fix IH 1. intros m. destruct m as [l|cfg|hooks ms|F]; intros g s vs x vx g' s' r R Rx; cbn [Storage.hforward forward].
    - destruct (hleaf_forward cg g l x) as [g1 r1] eqn:E. injection 1 as <- <- <-.
      destruct (hleaf_forward_ok _ _ _ _ _ _ Rx E) as (A & B & C). cbn.
      split; [auto|]. split; [eapply keeps_Rs; eauto|]. split; [auto|]. split; [|auto].
      intros q Hq. left. apply in_or_app; auto.
    - pose proof Rx as [Ex Lx]. rewrite Ex. destruct (max_pool2d cfg vx) as [[val idx]|e]; cbn.
      + destruct (alloc g val) as [g1 q1] eqn:E. injection 1 as <- <- <-.
        pose proof (keeps_alloc g val) as Kp. pose proof (Rr_alloc g val) as Rq. pose proof (len_alloc g val) as Le.
        assert (rl q1 = len g) by (apply (f_equal snd) in E; cbn in E; now subst).
        rewrite E in *. cbn [fst snd] in *.
        split; [auto|]. split; [|split; [exact Rq|split]].
        * apply Rs_mk; [eapply keeps_Rf, Rs_fm|eapply keeps_Rk, Rs_kids]; eauto.
        * intros q Hq. left. apply in_or_app. left. rewrite locs_eq. now rewrite locs_mk in Hq.
        * intros y [= <-]. right. lia.
      + injection 1 as <- <- <-. split; [apply keeps_refl|]. split; [auto|]. split; [reflexivity|].
        split; [|discriminate]. intros q Hq. left. apply in_or_app; auto.
    - destruct (hseq_forward hforward hooks ms g (h_kids s) x (if hooks then [x] else h_fm s))
        as [[[g1 ks1] fm1] r1] eqn:E.
      injection 1 as <- <- <-.
      assert (Rf0 : Rf g (if hooks then [x] else h_fm s) (if hooks then [vx] else st_fm vs)).
      { destruct hooks; [|now apply Rs_fm]. destruct Rx as [<- Lx]. split; auto. intros q [<-|[]]; auto. }
      assert (FA : Forall fwd_spec ms).
      { clear -IH. induction ms as [|m ms I]; constructor; [apply IH|exact I]. }
      destruct (hseq_forward_ok hooks ms FA _ _ _ _ _ _ _ _ _ _ _ (Rs_kids _ _ _ R) Rx Rf0 E)
        as (Kp & Rk1 & Rf1 & Rr1 & G & Y).
      destruct (seq_forward forward hooks ms (st_kids vs) vx (if hooks then [vx] else st_fm vs))
        as [[vks1 vfm1] vr1]. cbn [fst snd] in *.
      split; [auto|]. split; [rewrite (Rs_idx _ _ _ R); now apply Rs_mk|]. split; [auto|]. split; [|auto].
      intros q Hq. rewrite locs_mk in Hq. assert (Hq' : In q (flat_map locs ks1 ++ map rl fm1)).
      { apply in_or_app. tauto. }
      apply G in Hq' as [Hq'|]; [left|auto]. rewrite !in_app_iff in Hq' |- *. rewrite locs_eq.
      clear -Hq'. repeat rewrite in_app_iff in Hq'. destruct hooks; cbn [map In] in *; rewrite ?in_app_iff in *; cbn [In] in *; intuition.
    - destruct (hforward F g (h_kid s) x) as [[g1 k1] r1] eqn:E.
      destruct (IH F _ _ _ _ _ _ _ _ (Rs_kid _ _ _ R) Rx E) as (Kp & Rk1 & Rr1 & G & Y).
      destruct (forward F (st_kid vs) vx) as [vk1 vr1]. cbn [fst snd] in *.
      assert (G' : forall g2, len g1 <= len g2 -> grows g g2 (locs s ++ [rl x]) (locs (hset_kid s k1))).
      { intros g2 Le q Hq. apply locs_set in Hq as [Hq|Hq]; [left; apply in_or_app; auto|].
        apply G in Hq as [Hq|]; [|right; lia]. left. apply in_app_or in Hq as [Hq|Hq]; apply in_or_app; auto.
        left. now apply locs_kid. }
      destruct r1 as [y|e], vr1 as [vy|e']; cbn in Rr1; try tauto.
      + destruct (fresh g1 (cat n0 1 [rd g1 x; rd g1 y])) as [g2 r2] eqn:E2. injection 1 as <- <- <-.
        apply fresh_ok in E2 as (Kp2 & Rr2 & C2). pose proof (k_len _ _ _ Kp). pose proof (k_len _ _ _ Kp2).
        assert (Rx1 : Rr g1 x vx) by (eapply keeps_Rr; eauto).
        destruct Rx1 as [Ex1 _]. destruct Rr1 as [Ey1 _]. rewrite Ex1, Ey1 in Rr2. cbn [bind].
        split; [eapply keeps_trans; eauto|]. split; [|split; [exact Rr2|split]].
        * apply Rs_set; [apply (keeps_Rs g); [eapply keeps_trans; eauto|auto]|eapply keeps_Rs; eauto].
        * apply G'; lia.
        * intros z Hz. destruct (C2 z Hz). right. lia.
      + injection 1 as <- <- <-. split; [auto|]. split; [apply Rs_set; auto; eapply keeps_Rs; eauto|].
        split; [exact Rr1|]. split; [apply G'; lia|discriminate].
  Qed.

  Lemma hensure_ok m g s vs x vx val vval g' s' r :
    Rs g s vs -> Rr g x vx -> Ro g val vval -> hensure cg m g s x val = (g', s', r) ->
    keeps g g' /\ Rs g' s' (fst (ensure m vs vx vval)) /\ RR (Rr g') r (snd (ensure m vs vx vval)) /\
    grows g g' (locs s ++ [rl x]) (locs s').
  Proof.
    intros R Rx Rv. destruct val as [v|], vval as [vv|]; cbn in *; try tauto.
    - injection 1 as <- <- <-. split; [apply keeps_refl|]. split; [exact R|]. split; [exact Rv|].
      intros l Hl. left. apply in_or_app; auto.
    - intros E. destruct (hforward_ok m _ _ _ _ _ _ _ _ R Rx E) as (A & B & C & D & _). auto.
  Qed.

  Lemma hfmap2_ok g hooks fm vfm k : Rf g fm vfm ->
    RR (fun p q => Rr g (fst p) (fst q) /\ Rr g (snd p) (snd q) /\ In (rl (fst p)) (map rl fm) /\
                   In (rl (snd p)) (map rl fm)) (hfmap2 hooks fm k) (fmap2 hooks vfm k).
  Proof.
    clear cg. intros [<- L].
    assert (A : forall k, RR (fun p q => Rr g p q /\ In (rl p) (map rl fm)) (hfmap_at hooks fm k)
                                         (fmap_at hooks (map (rd g) fm) k)).
    { intros j. unfold hfmap_at, fmap_at. destruct hooks; [|reflexivity].
      rewrite nth_error_map. destruct (nth_error fm j) as [r|] eqn:E; cbn; [|reflexivity].
      apply nth_error_In in E. apply (in_map rl) in E. repeat split; auto. }
    unfold hfmap2, fmap2. pose proof (A k) as A0. pose proof (A (S k)) as A1.
    destruct (hfmap_at hooks fm k), (fmap_at hooks (map (rd g) fm) k); cbn in *; try tauto; try congruence.
    destruct (hfmap_at hooks fm (S k)), (fmap_at hooks (map (rd g) fm) (S k)); cbn in *; try tauto; try congruence.
  Qed.
End StorageFwd.
