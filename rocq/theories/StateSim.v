(** Once the hidden state describes the forward pass at x (coh), products with a given val are functions of their
    arguments: they return the same for any two such states - for every argument, also when they raise - and the
    backward products leave the state exactly as it was. *)
From Coq Require Import String Ascii List Arith ZArith Lia Bool.
From Verif Require Import Scalar Sums Tensor TensorLemmas EinsumLemmas Conv Abstract Simple LinearLayer ConvLayer PoolLayer
  Module Spec OpLemmas ReshapeLemmas Jac LeafSpec TreeBase TreeVjp StateCoh.
Import ListNotations.
Local Open Scope nat_scope.
Local Open Scope list_scope.

Section Sim.
  Context {K} `{CR : CRing K}.
  Notation gt := (get (@n0 K _)).
  Notation T := (tensor K).
  Variable BF : @base_fwd K _.
  Variable BPF : @base_pool_fwd K _.

  Definition exact_m {R} (m : module K) s (op : st K -> T -> st K * R) : Prop :=
    forall b st1 st2 x, 0 < b -> wf x -> shape x = b :: s -> coh m st1 x -> coh m st2 x ->
    op st1 x = (st1, snd (op st2 x)).
  Definition exact_seq {R} (ms : list (module K)) s (op : list T -> list (st K) -> nat -> list (st K) * R) : Prop :=
    forall b fma1 fma2 k fm1 fm2 ks1 ks2 x, 0 < b -> wf x -> shape x = b :: s ->
    coh_seq coh ms ks1 fm1 x -> skipn k fma1 = fm1 -> coh_seq coh ms ks2 fm2 x -> skipn k fma2 = fm2 ->
    op fma1 ks1 k = (ks1, snd (op fma2 ks2 k)).
  Lemma eta_Seq (s : st K) : St (st_fm s) (st_idx s) (st_kids s) = s. Proof. now destruct s. Qed.
  Lemma eta_kid (s : st K) : st_kids s = [st_kid s] -> set_kid s (st_kid s) = s.
  Proof. intros E. unfold set_kid. rewrite <- E. apply eta_Seq. Qed.
  Lemma set_set_kid (s k k' : st K) : set_kid (set_kid s k) k' = set_kid s k'. Proof. reflexivity. Qed.

  (** both descriptions of a non-empty list of children, at once *)
  Ltac open2 C1 C2 :=
    let st1 := fresh "st1" in let ks1 := fresh "ks1" in let f1 := fresh "f1" in let y := fresh "y" in let r1 := fresh "r1" in
    let st2 := fresh "st2" in let ks2 := fresh "ks2" in let f2 := fresh "f2" in let y2 := fresh "y2" in let r2 := fresh "r2" in
    let Fy := fresh "Fy" in let Fy2 := fresh "Fy2" in let Cm1 := fresh "Cm1" in let Cm2 := fresh "Cm2" in let Cs1 := fresh "Cs1" in let Cs2 := fresh "Cs2" in
    destruct C1 as (st1 & ks1 & f1 & y & -> & -> & Fy & Cm1 & Cs1); destruct C2 as (st2 & ks2 & f2 & y2 & -> & -> & Fy2 & Cm2 & Cs2);
    assert (y2 = y) by congruence; subst y2; clear Fy2;
    destruct (coh_seq_head _ _ _ _ _ Cs1) as [r1 ->]; destruct (coh_seq_head _ _ _ _ _ Cs2) as [r2 ->].
  Ltac eta_done := rewrite ?surjective_pairing; cbn [fst snd]; auto.

  (** *** vjp *)
  Definition vjp_E (ms : list (module K)) s : Prop := forall v,
    exact_seq ms s (fun fma ks k => seq_vjp_in vjp true fma ms ks k v) /\
    exact_seq ms s (fun fma ks k => seq_vjp_w vjp true fma ms ks k v).
  Lemma vjp_exact_body ms s s' : typed_seq ms s s' -> vjp_E ms s -> forall y v w, exact_m (Seq true ms) s (fun st x => vjp (Seq true ms) st x (Some y) v w).
  Proof.
    intros Ty IH y v w b st1 st2 x Hb Wx Sx [_ C1] [_ C2]. cbn [vjp ensure]. destruct (wrt_ok w); auto. destruct (IH v) as [A B].
    specialize (A b (st_fm st1) (st_fm st2) 0 _ _ (st_kids st1) (st_kids st2) x Hb Wx Sx C1 eq_refl C2 eq_refl).
    specialize (B b (st_fm st1) (st_fm st2) 0 _ _ (st_kids st1) (st_kids st2) x Hb Wx Sx C1 eq_refl C2 eq_refl).
    cbn beta in *. destruct w; rewrite ?A, ?B, eta_Seq; clear A B; [destruct seq_vjp_in|destruct seq_vjp_w|destruct seq_vjp_in]; reflexivity.
  Qed.
  Lemma vjp_exact :
    (forall m s s', typed m s s' -> forall y v w, exact_m m s (fun st x => vjp m st x (Some y) v w)) /\
    (forall ms s s', typed_seq ms s s' -> vjp_E ms s).
  Proof.
    apply typed_both.
    - intros l s s' Ty y v w b st1 st2 x Hb Wx Sx C1 C2. reflexivity.
    - intros cfg s s' Ty y v w b st1 st2 x Hb Wx Sx (v1 & i1 & E1 & C1) (v2 & i2 & E2 & C2).
      cbn [vjp ensure]. destruct w; auto. rewrite C1, C2. now replace i2 with i1 by congruence.
    - intros ms s s' Ty IH. now apply (vjp_exact_body ms s s').
    - intros ms c c' r Ty IH y v w b st1 st2 x Hb Wx Sx [K1 C1] [K2 C2].
      pose proof (fun y v => vjp_exact_body ms _ _ Ty IH y v w b (st_kid st1) (st_kid st2) x Hb Wx Sx C1 C2) as I1. remember (Seq true ms) as F. cbn [vjp val_tail].
      destruct (numel0 x) as [l|]; [|reflexivity]. cbn [bind]. unfold some. destruct (slice_from n0 1 l y) as [t|]; [|reflexivity]. cbn [bind].
      destruct (slice_from n0 1 l v) as [vt|]; [|reflexivity]. cbn [bind]. rewrite (I1 t vt). rewrite (eta_kid st1 K1). cbn beta.
      destruct (vjp F (st_kid st2) x (Some t) vt w). reflexivity.
    - intros s Hs v. split; intros b fma1 fma2 k fm1 fm2 ks1 ks2 x Hb Wx Sx [-> _] _ _ _; reflexivity.
    - intros m ms s s1 s2 Tm IHm Ts IHs v. destruct (IHs v) as [Ia Ib].
      split; intros b fma1 fma2 k fm1 fm2 ksa ksb x Hb Wx Sx C1 Sk1 C2 Sk2; open2 C1 C2;
      destruct (typed_fwd_y BF BPF _ _ _ b x y Tm Hb Wx Sx Fy) as [Wy Sy]; destruct (fmaps_ok fma1 fma1 k _ _ _ Sk1) as [Ef1 Sk1']; destruct (fmaps_ok fma2 fma2 k _ _ _ Sk2) as [Ef2 Sk2'].
      + specialize (Ia b fma1 fma2 (S k) _ _ ks1 ks2 y Hb Wy Sy Cs1 Sk1' Cs2 Sk2'). cbn [seq_vjp_in kid_split]. cbn beta in Ia. rewrite Ia.
        destruct (seq_vjp_in vjp true fma2 ms ks2 (S k) v) as [k' [v1|]]; [|reflexivity]. cbn [snd bind]. rewrite Ef1, Ef2. cbn [bind].
        pose proof (IHm y v1 Input b st1 st2 x Hb Wx Sx Cm1 Cm2) as I1. cbn beta in I1. rewrite I1. now destruct (vjp m st2 x (Some y) v1 Input).
      + specialize (Ib b fma1 fma2 (S k) _ _ ks1 ks2 y Hb Wy Sy Cs1 Sk1' Cs2 Sk2'). cbn [seq_vjp_w kid_split]. cbn beta in Ib. rewrite Ib.
        destruct (seq_vjp_w vjp true fma2 ms ks2 (S k) v) as [k' [[vs v1]|]]; [|reflexivity]. cbn [snd bind]. rewrite Ef1, Ef2. cbn [bind].
        pose proof (IHm y v1 Weight b st1 st2 x Hb Wx Sx Cm1 Cm2) as I1. cbn beta in I1. rewrite I1.
        pose proof (IHm y v1 Weight b st2 st2 x Hb Wx Sx Cm2 Cm2) as I1'. cbn beta in I1'. rewrite I1'. cbn [snd]. clear I1 I1'.
        destruct (snd (vjp m st2 x (Some y) v1 Weight)); [|reflexivity]. destruct (Nat.eqb k 0); [reflexivity|].
        pose proof (IHm y v1 Input b st1 st2 x Hb Wx Sx Cm1 Cm2) as I1. cbn beta in I1. rewrite I1. now destruct (vjp m st2 x (Some y) v1 Input).
  Qed.

  Lemma skip_jacobian_exact F jacF st1 st2 x (y : T) w : coh (Skip F) st1 x -> coh (Skip F) st2 x ->
    jacF (st_kid st1) (Some y) = (st_kid st1, snd (jacF (st_kid st2) (Some y))) ->
    skip_jacobian F jacF st1 x (Some y) w = (st1, snd (skip_jacobian F jacF st2 x (Some y) w)).
  Proof.
    intros [K1 _] [K2 _] E. unfold skip_jacobian. rewrite E, (eta_kid st1 K1). destruct (jacF (st_kid st2) (Some y)) as [k r]. cbn [snd].
    destruct (bind r _) as [[[jac b0] l]|]; [|reflexivity]. reflexivity.
  Qed.

  (** *** mjp *)
  Definition mjp_E (ms : list (module K)) s : Prop := forall v,
    exact_seq ms s (fun fma ks k => seq_mjp_in mjp true fma ms ks k v) /\
    exact_seq ms s (fun fma ks k => seq_mjp_w mjp true fma ms ks k v).
  Lemma mjp_exact_body ms s s' : typed_seq ms s s' -> mjp_E ms s -> forall y v w, exact_m (Seq true ms) s (fun st x => mjp (Seq true ms) st x (Some y) v w).
  Proof.
    intros Ty IH y v w b st1 st2 x Hb Wx Sx [_ C1] [_ C2]. cbn [mjp ensure]. destruct (wrt_ok w); auto. cbn [bind].
    match goal with |- context [match ?c with Ok _ => _ | Raise _ => _ end] => destruct c as [mt|]; [|reflexivity] end. destruct (IH (Some mt)) as [A B].
    specialize (A b (st_fm st1) (st_fm st2) 0 _ _ (st_kids st1) (st_kids st2) x Hb Wx Sx C1 eq_refl C2 eq_refl).
    specialize (B b (st_fm st1) (st_fm st2) 0 _ _ (st_kids st1) (st_kids st2) x Hb Wx Sx C1 eq_refl C2 eq_refl).
    cbn beta in *. destruct w; rewrite ?A, ?B, eta_Seq; clear A B; [destruct seq_mjp_in|destruct seq_mjp_w|destruct seq_mjp_in]; reflexivity.
  Qed.
  Lemma mjp_exact :
    (forall m s s', typed m s s' -> forall y v w, exact_m m s (fun st x => mjp m st x (Some y) v w)) /\
    (forall ms s s', typed_seq ms s s' -> mjp_E ms s).
  Proof.
    apply typed_both.
    - intros l s s' Ty y v w b st1 st2 x Hb Wx Sx C1 C2. reflexivity.
    - intros cfg s s' Ty y v w b st1 st2 x Hb Wx Sx (v1 & i1 & E1 & C1) (v2 & i2 & E2 & C2).
      cbn [mjp]. unfold maxpool_jacobian. cbn [ensure]. destruct v, w; auto; rewrite C1, C2; now replace i2 with i1 by congruence.
    - intros ms s s' Ty IH. now apply (mjp_exact_body ms s s').
    - intros ms c c' r Ty IH y v w b st1 st2 x Hb Wx Sx C1 C2.
      pose proof (fun y v => mjp_exact_body ms _ _ Ty IH y v w b (st_kid st1) (st_kid st2) x Hb Wx Sx (proj2 C1) (proj2 C2)) as I1. destruct v as [v|].
      + remember (Seq true ms) as F. cbn [mjp val_tail]. destruct C1 as [K1 C1].
        destruct (numel0 x) as [l|]; [|reflexivity]. cbn [bind]. unfold some. destruct (slice_from n0 1 l y) as [t|]; [|reflexivity]. cbn [bind].
        destruct (slice_from n0 2 l v) as [vt|]; [|reflexivity]. cbn [bind]. rewrite (I1 t (Some vt)). rewrite (eta_kid st1 K1). cbn beta.
        destruct (mjp F (st_kid st2) x (Some t) (Some vt) w). reflexivity.
      + exact (skip_jacobian_exact (Seq true ms) (fun k v => mjp (Seq true ms) k x v None w) st1 st2 x y w C1 C2 (I1 y None)).
    - intros s Hs v. split; intros b fma1 fma2 k fm1 fm2 ks1 ks2 x Hb Wx Sx [-> _] _ _ _; reflexivity.
    - intros m ms s s1 s2 Tm IHm Ts IHs v. destruct (IHs v) as [Ia Ib].
      split; intros b fma1 fma2 k fm1 fm2 ksa ksb x Hb Wx Sx C1 Sk1 C2 Sk2; open2 C1 C2;
      destruct (typed_fwd_y BF BPF _ _ _ b x y Tm Hb Wx Sx Fy) as [Wy Sy]; destruct (fmaps_ok fma1 fma1 k _ _ _ Sk1) as [Ef1 Sk1']; destruct (fmaps_ok fma2 fma2 k _ _ _ Sk2) as [Ef2 Sk2'].
      + specialize (Ia b fma1 fma2 (S k) _ _ ks1 ks2 y Hb Wy Sy Cs1 Sk1' Cs2 Sk2'). cbn [seq_mjp_in kid_split]. cbn beta in Ia. rewrite Ia.
        destruct (seq_mjp_in mjp true fma2 ms ks2 (S k) v) as [k' [v1|]]; [|reflexivity]. cbn [snd bind]. rewrite Ef1, Ef2. cbn [bind].
        pose proof (IHm y v1 Input b st1 st2 x Hb Wx Sx Cm1 Cm2) as I1. cbn beta in I1. rewrite I1. now destruct (mjp m st2 x (Some y) v1 Input).
      + specialize (Ib b fma1 fma2 (S k) _ _ ks1 ks2 y Hb Wy Sy Cs1 Sk1' Cs2 Sk2'). cbn [seq_mjp_w kid_split]. cbn beta in Ib. rewrite Ib.
        destruct (seq_mjp_w mjp true fma2 ms ks2 (S k) v) as [k' [[vs v1]|]]; [|reflexivity]. cbn [snd bind]. rewrite Ef1, Ef2. cbn [bind].
        pose proof (IHm y v1 Weight b st1 st2 x Hb Wx Sx Cm1 Cm2) as I1. cbn beta in I1. rewrite I1.
        pose proof (IHm y v1 Weight b st2 st2 x Hb Wx Sx Cm2 Cm2) as I1'. cbn beta in I1'. rewrite I1'. cbn [snd]. clear I1 I1'.
        destruct (snd (mjp m st2 x (Some y) v1 Weight)); [|reflexivity]. destruct (Nat.eqb k 0); [reflexivity|].
        pose proof (IHm y v1 Input b st1 st2 x Hb Wx Sx Cm1 Cm2) as I1. cbn beta in I1. rewrite I1. now destruct (mjp m st2 x (Some y) v1 Input).
  Qed.
  Lemma jacobian_exact m s s' : typed m s s' -> forall y w, exact_m m s (fun st x => jacobian m st x (Some y) w).
  Proof.
    intros Ty y w. pose proof (proj1 mjp_exact m s s' Ty y None w) as E. destruct m; try exact E. intros b st1 st2 x Hb Wx Sx C1 C2. reflexivity.
  Qed.

  (** *** jTmjp *)
  Definition jTmjp_E (ms : list (module K)) s : Prop := forall fd td db,
    (forall v, exact_seq ms s (fun fma ks k => seq_jTmjp_in jTmjp true fma ms ks k v fd td db)) /\
    (forall v, exact_seq ms s (fun fma ks k => seq_jTmjp_w jTmjp true fma ms ks k v fd td db)).
  Lemma jTmjp_exact_body ms s s' : typed_seq ms s s' -> jTmjp_E ms s -> forall y v w fd td db,
    exact_m (Seq true ms) s (fun st x => jTmjp (Seq true ms) st x (Some y) v w fd td db).
  Proof.
    intros Ty IH y v w fd td db b st1 st2 x Hb Wx Sx [_ C1] [_ C2]. cbn [jTmjp ensure]. destruct (db_ok fd td db); auto. cbn [bind].
    match goal with |- context [match ?c with Ok _ => _ | Raise _ => _ end] => destruct c as [[mt fd1]|]; [|reflexivity] end. destruct (IH fd1 td db) as [A B].
    specialize (A mt b (st_fm st1) (st_fm st2) 0 _ _ (st_kids st1) (st_kids st2) x Hb Wx Sx C1 eq_refl C2 eq_refl).
    specialize (B mt b (st_fm st1) (st_fm st2) 0 _ _ (st_kids st1) (st_kids st2) x Hb Wx Sx C1 eq_refl C2 eq_refl).
    cbn beta in *. destruct w; rewrite ?A, ?B, eta_Seq; clear A B; [destruct seq_jTmjp_in|destruct seq_jTmjp_w|destruct seq_jTmjp_in]; reflexivity.
  Qed.
  Lemma jTmjp_exact :
    (forall m s s', typed m s s' -> forall y v w fd td db, exact_m m s (fun st x => jTmjp m st x (Some y) v w fd td db)) /\
    (forall ms s s', typed_seq ms s s' -> jTmjp_E ms s).
  Proof.
    apply typed_both.
    - intros l s s' Ty y v w fd td db b st1 st2 x Hb Wx Sx C1 C2. reflexivity.
    - intros cfg s s' Ty y v w fd td db b st1 st2 x Hb Wx Sx (v1 & i1 & E1 & C1) (v2 & i2 & E2 & C2).
      cbn [jTmjp ensure]. rewrite C1, C2; now replace i2 with i1 by congruence.
    - intros ms s s' Ty IH. now apply (jTmjp_exact_body ms s s').
    - intros ms c c' r Ty IH y v w fd td db b st1 st2 x Hb Wx Sx [K1 C1] [K2 C2].
      pose proof (fun y v fd => jTmjp_exact_body ms _ _ Ty IH y v w fd td db b (st_kid st1) (st_kid st2) x Hb Wx Sx C1 C2) as I1.
      pose proof (fun y v fd => jTmjp_exact_body ms _ _ Ty IH y v w fd td db b (st_kid st2) (st_kid st2) x Hb Wx Sx C2 C2) as I2.
      pose proof (fun y v w => proj1 mjp_exact _ _ _ (ty_seq _ _ _ Ty) y v w b (st_kid st1) (st_kid st2) x Hb Wx Sx C1 C2) as M1.
      pose proof (fun y v w => proj1 mjp_exact _ _ _ (ty_seq _ _ _ Ty) y v w b (st_kid st2) (st_kid st2) x Hb Wx Sx C2 C2) as M2.
      cbn beta in *. remember (Seq true ms) as F. cbn [jTmjp ensure]. destruct (db_ok fd td db); auto. cbn [bind].
      match goal with |- context [bind ?a ?f] => destruct (bind a f) as [[[[[mt fd1] l] t] sub]|]; [|reflexivity] end.
      rewrite (I1 t (VT sub) fd1), (I2 t (VT sub) fd1), (eta_kid st1 K1), (eta_kid st2 K2). cbn [snd].
      destruct (snd (jTmjp F (st_kid st2) x _ _ w fd1 td db)) as [j|]; [|reflexivity].
      destruct w; try reflexivity. destruct fd1; [reflexivity|].
      destruct (bind (slice n0 1 0 l mt) _) as [m12|]; [|reflexivity].
      rewrite (M1 t (Some m12) Input), (M2 t (Some m12) Input), (eta_kid st1 K1), (eta_kid st2 K2). cbn [snd].
      match goal with |- context [bind ?a ?f] => destruct (bind a f) as [[mj m21]|]; [|reflexivity] end.
      rewrite (M1 t (Some m21) Input), (M2 t (Some m21) Input), (eta_kid st1 K1), (eta_kid st2 K2). cbn [snd]. reflexivity.
    - intros s Hs fd td db. split; intros v b fma1 fma2 k fm1 fm2 ks1 ks2 x Hb Wx Sx [-> _] _ _ _; reflexivity.
    - intros m ms s s1 s2 Tm IHm Ts IHs fd td db. destruct (IHs fd td db) as [Ia Ib].
      split; intros v b fma1 fma2 k fm1 fm2 ksa ksb x Hb Wx Sx C1 Sk1 C2 Sk2; open2 C1 C2;
      destruct (typed_fwd_y BF BPF _ _ _ b x y Tm Hb Wx Sx Fy) as [Wy Sy]; destruct (fmaps_ok fma1 fma1 k _ _ _ Sk1) as [Ef1 Sk1']; destruct (fmaps_ok fma2 fma2 k _ _ _ Sk2) as [Ef2 Sk2'].
      + specialize (Ia v b fma1 fma2 (S k) _ _ ks1 ks2 y Hb Wy Sy Cs1 Sk1' Cs2 Sk2'). cbn [seq_jTmjp_in kid_split]. cbn beta in Ia. rewrite Ia.
        set (fd' := match ms with [] => fd | _ => db end). set (td' := if Nat.eqb k 0 then td else db).
        destruct (seq_jTmjp_in jTmjp true fma2 ms ks2 (S k) v fd td db) as [k' [v1|]]; [|reflexivity]. cbn [snd bind]. rewrite Ef1, Ef2. cbn [bind].
        pose proof (IHm y v1 Input fd' td' db b st1 st2 x Hb Wx Sx Cm1 Cm2) as I1. cbn beta in I1. rewrite I1. now destruct (jTmjp m st2 x (Some y) v1 Input fd' td' db).
      + specialize (Ib v b fma1 fma2 (S k) _ _ ks1 ks2 y Hb Wy Sy Cs1 Sk1' Cs2 Sk2'). cbn [seq_jTmjp_w kid_split]. cbn beta in Ib. rewrite Ib.
        set (fd' := match ms with [] => fd | _ => db end).
        destruct (seq_jTmjp_w jTmjp true fma2 ms ks2 (S k) v fd td db) as [k' [[vs v1]|]]; [|reflexivity]. cbn [snd bind]. rewrite Ef1, Ef2. cbn [bind].
        pose proof (IHm y v1 Weight fd' td db b st1 st2 x Hb Wx Sx Cm1 Cm2) as I1. cbn beta in I1. rewrite I1.
        pose proof (IHm y v1 Weight fd' td db b st2 st2 x Hb Wx Sx Cm2 Cm2) as I1'. cbn beta in I1'. rewrite I1'. cbn [snd]. clear I1 I1'.
        destruct (snd (jTmjp m st2 x (Some y) v1 Weight fd' td db)); [|reflexivity]. destruct (Nat.eqb k 0); [reflexivity|].
        pose proof (IHm y v1 Input fd' db db b st1 st2 x Hb Wx Sx Cm1 Cm2) as I1. cbn beta in I1. rewrite I1. now destruct (jTmjp m st2 x (Some y) v1 Input fd' db db).
  Qed.

  (** *** the forward-mode products: the same result, though the state may grow *)
  Definition same_m {R} (m : module K) s (op : st K -> T -> st K * R) : Prop :=
    forall b st1 st2 x, 0 < b -> wf x -> shape x = b :: s -> coh m st1 x -> coh m st2 x -> snd (op st1 x) = snd (op st2 x).
  Definition same_seqf {R} (ms : list (module K)) s (op : list (st K) -> T -> list T -> list (st K) * list T * R) : Prop :=
    forall b ks1 ks2 fm1 fm2 x, 0 < b -> wf x -> shape x = b :: s -> snd (op ks1 x fm1) = snd (op ks2 x fm2).
  Definition same_seq {R} (ms : list (module K)) s (op : list T -> list (st K) -> nat -> list (st K) * R) : Prop :=
    forall b fma1 fma2 k fm1 fm2 ks1 ks2 x, 0 < b -> wf x -> shape x = b :: s ->
    coh_seq coh ms ks1 fm1 x -> skipn k fma1 = fm1 -> coh_seq coh ms ks2 fm2 x -> skipn k fma2 = fm2 ->
    snd (op fma1 ks1 k) = snd (op fma2 ks2 k).
  Lemma exact_same {R} m s (op : st K -> T -> st K * R) : exact_m m s op -> same_m m s op.
  Proof. intros E b st1 st2 x Hb Wx Sx C1 C2. rewrite (E b st1 st2); auto. Qed.

  Definition jvp_S (ms : list (module K)) s : Prop :=
    (forall v, same_seqf ms s (fun ks x fm => seq_jvp_in jvp true ms ks x fm v)) /\
    (forall v p acc, same_seqf ms s (fun ks x fm => seq_jvp_w jvp true ms ks x fm v p acc)).
  (** a Sequential runs its modules itself: no assumption on its state *)
  Lemma jvp_same_body ms s : jvp_S ms s -> forall val v w b st1 st2 x, 0 < b -> wf x -> shape x = b :: s ->
    snd (jvp (Seq true ms) st1 x val v w) = snd (jvp (Seq true ms) st2 x val v w).
  Proof.
    intros [IA IB] val v w b st1 st2 x Hb Wx Sx. cbn [jvp].
    pose proof (IA v b (st_kids st1) (st_kids st2) (st_fm st1) (st_fm st2) x Hb Wx Sx) as A.
    pose proof (IB v 0 None b (st_kids st1) (st_kids st2) (st_fm st1) (st_fm st2) x Hb Wx Sx) as B. cbn beta in *.
    destruct w; auto.
    - destruct (seq_jvp_in jvp true ms (st_kids st1) x (st_fm st1) v) as [[? ?] ?], (seq_jvp_in jvp true ms (st_kids st2) x (st_fm st2) v) as [[? ?] ?].
      cbn [snd] in *. now rewrite A.
    - destruct (seq_jvp_w jvp true ms (st_kids st1) x (st_fm st1) v 0 None) as [[? ?] ?], (seq_jvp_w jvp true ms (st_kids st2) x (st_fm st2) v 0 None) as [[? ?] ?].
      cbn [snd] in *. now rewrite B.
  Qed.
  Lemma jvp_same :
    (forall m s s', typed m s s' -> forall val v w, same_m m s (fun st x => jvp m st x val v w)) /\
    (forall ms s s', typed_seq ms s s' -> jvp_S ms s).
  Proof.
    apply typed_both.
    - intros l s s' Ty val v w b st1 st2 x Hb Wx Sx C1 C2. reflexivity.
    - intros cfg s s' Ty val v w b st1 st2 x Hb Wx Sx C1 C2. reflexivity.
    - intros ms s s' Ty IH val v w b st1 st2 x Hb Wx Sx C1 C2. now apply (jvp_same_body ms s IH val v w b).
    - intros ms c c' r Ty IH val v w b st1 st2 x Hb Wx Sx C1 C2.
      pose proof (fun val => jvp_same_body ms _ IH val v w b (st_kid st1) (st_kid st2) x Hb Wx Sx) as I1. remember (Seq true ms) as F. cbn [jvp].
      destruct (bind _ _) as [[[b0 l] t]|]; [|reflexivity]. specialize (I1 t). cbn beta in *.
      destruct (jvp F (st_kid st1) x t v w), (jvp F (st_kid st2) x t v w). cbn [snd] in *. now rewrite I1.
    - intros s Hs. split; intros; intros b ks1 ks2 fm1 fm2 x Hb Wx Sx; reflexivity.
    - intros m ms s s1 s2 Tm IHm Ts [Ia Ib]. split.
      + intros v b ksa ksb fm1 fm2 x Hb Wx Sx. cbn [seq_jvp_in]. destruct (kid_split ksa) as [st1 ks1], (kid_split ksb) as [st2 ks2].
        rewrite (forward_eta m st1), (forward_eta m st2). destruct (fwd m x) as [y|] eqn:Fy; [|reflexivity].
        destruct (typed_fwd_y BF BPF _ _ _ b x y Tm Hb Wx Sx Fy) as [Wy Sy].
        pose proof (typed_coh BF BPF m s s1 Tm b x st1 Hb Wx Sx) as C1. pose proof (typed_coh BF BPF m s s1 Tm b x st2 Hb Wx Sx) as C2.
        pose proof (IHm (Some y) v Input b _ _ x Hb Wx Sx C1 C2) as I1. cbn beta in *.
        destruct (jvp m (fst (forward m st1 x)) x _ v Input) as [k1 r1], (jvp m (fst (forward m st2 x)) x _ v Input) as [k2 r2]. cbn [snd] in I1. subst r2.
        destruct (bind r1 _) as [v1|]; [|reflexivity].
        pose proof (Ia v1 b ks1 ks2 (hook_push true fm1 y) (hook_push true fm2 y) y Hb Wy Sy) as I2. cbn beta in *.
        destruct (seq_jvp_in jvp true ms ks1 y _ v1) as [[? ?] ?], (seq_jvp_in jvp true ms ks2 y _ v1) as [[? ?] ?]. exact I2.
      + intros v p acc b ksa ksb fm1 fm2 x Hb Wx Sx. cbn [seq_jvp_w]. destruct (kid_split ksa) as [st1 ks1], (kid_split ksb) as [st2 ks2].
        rewrite (forward_eta m st1), (forward_eta m st2). destruct (fwd m x) as [y|] eqn:Fy; [|reflexivity].
        destruct (typed_fwd_y BF BPF _ _ _ b x y Tm Hb Wx Sx Fy) as [Wy Sy].
        pose proof (typed_coh BF BPF m s s1 Tm b x st1 Hb Wx Sx) as C1. pose proof (typed_coh BF BPF m s s1 Tm b x st2 Hb Wx Sx) as C2.
        set (call1 := match acc with None => (fst (forward m st1 x), Ok None) | Some a => jvp m (fst (forward m st1 x)) x (Some y) a Input end).
        set (call2 := match acc with None => (fst (forward m st2 x), Ok None) | Some a => jvp m (fst (forward m st2 x)) x (Some y) a Input end).
        assert (J1 : coh m (fst call1) x) by (unfold call1; destruct acc as [a|]; auto; now apply (proj1 (jvp_keeps BF BPF) m _ _ Tm (Some y) a Input b)).
        assert (J2 : coh m (fst call2) x) by (unfold call2; destruct acc as [a|]; auto; now apply (proj1 (jvp_keeps BF BPF) m _ _ Tm (Some y) a Input b)).
        assert (Jr : snd call1 = snd call2) by (unfold call1, call2; destruct acc as [a|]; auto; now apply (IHm (Some y) a Input b)).
        destruct call1 as [k1 r1], call2 as [k2 r2]. cbn [fst snd] in *. subst r2. destruct (bind r1 _) as [[acc1 vp]|]; [|reflexivity].
        pose proof (IHm (Some y) vp Weight b k1 k2 x Hb Wx Sx J1 J2) as I1. cbn beta in *.
        destruct (jvp m k1 x _ vp Weight) as [k3 r3], (jvp m k2 x _ vp Weight) as [k4 r4]. cbn [snd] in I1. subst r4.
        destruct (bind r3 _) as [acc2|]; [|reflexivity].
        pose proof (Ib v (p + n_params m) acc2 b ks1 ks2 (hook_push true fm1 y) (hook_push true fm2 y) y Hb Wy Sy) as I2. cbn beta in *.
        destruct (seq_jvp_w jvp true ms ks1 y _ v _ acc2) as [[? ?] ?], (seq_jvp_w jvp true ms ks2 y _ v _ acc2) as [[? ?] ?]. exact I2.
  Qed.

  (** *** jmp *)
  Definition jmp_S (ms : list (module K)) s : Prop :=
    (forall v, same_seqf ms s (fun ks x fm => seq_jmp_in jmp true ms ks x fm v)) /\
    (forall v p acc, same_seqf ms s (fun ks x fm => seq_jmp_w jmp true ms ks x fm v p acc)).
  Lemma jmp_same_body ms s : jmp_S ms s -> forall val v w b st1 st2 x, 0 < b -> wf x -> shape x = b :: s ->
    snd (jmp (Seq true ms) st1 x val (Some v) w) = snd (jmp (Seq true ms) st2 x val (Some v) w).
  Proof.
    intros [IA IB] val v w b st1 st2 x Hb Wx Sx. cbn [jmp].
    pose proof (IA (Some v) b (st_kids st1) (st_kids st2) (st_fm st1) (st_fm st2) x Hb Wx Sx) as A.
    pose proof (IB v 0 None b (st_kids st1) (st_kids st2) (st_fm st1) (st_fm st2) x Hb Wx Sx) as B. cbn beta in *.
    destruct w; cbn [wrt_ok]; auto.
    - destruct (seq_jmp_in jmp true ms (st_kids st1) x (st_fm st1) (Some v)) as [[? ?] ?], (seq_jmp_in jmp true ms (st_kids st2) x (st_fm st2) (Some v)) as [[? ?] ?].
      cbn [snd] in *. now rewrite A.
    - destruct (seq_jmp_w jmp true ms (st_kids st1) x (st_fm st1) v 0 None) as [[? ?] ?], (seq_jmp_w jmp true ms (st_kids st2) x (st_fm st2) v 0 None) as [[? ?] ?].
      cbn [snd] in *. now rewrite B.
  Qed.
  Lemma jmp_same :
    (forall m s s', typed m s s' -> forall y v w, same_m m s (fun st x => jmp m st x (Some y) v w)) /\
    (forall ms s s', typed_seq ms s s' -> jmp_S ms s).
  Proof.
    apply typed_both.
    - intros l s s' Ty val v w b st1 st2 x Hb Wx Sx C1 C2. reflexivity.
    - intros cfg s s' Ty y v w b st1 st2 x Hb Wx Sx (v1 & i1 & E1 & C1) (v2 & i2 & E2 & C2).
      cbn [jmp]. unfold maxpool_jacobian. cbn [ensure]. destruct v, w; auto; rewrite C1, C2; now replace i2 with i1 by congruence.
    - intros ms s s' Ty IH val v w b st1 st2 x Hb Wx Sx C1 C2. destruct v as [v|]; [now apply (jmp_same_body ms s IH _ _ w b)|].
      cbn [jmp]. destruct (wrt_ok w); auto. now apply (exact_same _ s _ (jacobian_exact _ _ _ (ty_seq _ _ _ Ty) val w) b).
    - intros ms c c' r Ty IH val v w b st1 st2 x Hb Wx Sx C1 C2. destruct v as [v|].
      + pose proof (fun val v => jmp_same_body ms _ IH val v w b (st_kid st1) (st_kid st2) x Hb Wx Sx) as I1. remember (Seq true ms) as F. cbn [jmp].
        destruct (bind _ _) as [[[b0 l] t]|]; [|reflexivity]. specialize (I1 t v). cbn beta in *.
        destruct (jmp F (st_kid st1) x t _ w), (jmp F (st_kid st2) x t _ w). cbn [snd] in *. now rewrite I1.
      + exact (exact_same _ _ _ (jacobian_exact _ _ _ (ty_skip _ _ _ _ Ty) val w) b st1 st2 x Hb Wx Sx C1 C2).
    - intros s Hs. split; intros; intros b ks1 ks2 fm1 fm2 x Hb Wx Sx; reflexivity.
    - intros m ms s s1 s2 Tm IHm Ts [Ia Ib]. split.
      + intros v b ksa ksb fm1 fm2 x Hb Wx Sx. cbn [seq_jmp_in]. destruct (kid_split ksa) as [st1 ks1], (kid_split ksb) as [st2 ks2].
        rewrite (forward_eta m st1), (forward_eta m st2). destruct (fwd m x) as [y|] eqn:Fy; [|reflexivity].
        destruct (typed_fwd_y BF BPF _ _ _ b x y Tm Hb Wx Sx Fy) as [Wy Sy].
        pose proof (typed_coh BF BPF m s s1 Tm b x st1 Hb Wx Sx) as C1. pose proof (typed_coh BF BPF m s s1 Tm b x st2 Hb Wx Sx) as C2.
        pose proof (IHm y v Input b _ _ x Hb Wx Sx C1 C2) as I1. cbn beta in *.
        destruct (jmp m (fst (forward m st1 x)) x _ v Input) as [k1 r1], (jmp m (fst (forward m st2 x)) x _ v Input) as [k2 r2]. cbn [snd] in I1. subst r2.
        destruct r1 as [v1|]; [|reflexivity].
        pose proof (Ia v1 b ks1 ks2 (hook_push true fm1 y) (hook_push true fm2 y) y Hb Wy Sy) as I2. cbn beta in *.
        destruct (seq_jmp_in jmp true ms ks1 y _ v1) as [[? ?] ?], (seq_jmp_in jmp true ms ks2 y _ v1) as [[? ?] ?]. exact I2.
      + intros v p acc b ksa ksb fm1 fm2 x Hb Wx Sx. cbn [seq_jmp_w]. destruct (kid_split ksa) as [st1 ks1], (kid_split ksb) as [st2 ks2].
        rewrite (forward_eta m st1), (forward_eta m st2). destruct (fwd m x) as [y|] eqn:Fy; [|reflexivity].
        destruct (typed_fwd_y BF BPF _ _ _ b x y Tm Hb Wx Sx Fy) as [Wy Sy].
        pose proof (typed_coh BF BPF m s s1 Tm b x st1 Hb Wx Sx) as C1. pose proof (typed_coh BF BPF m s s1 Tm b x st2 Hb Wx Sx) as C2.
        set (call1 := match acc with None => (fst (forward m st1 x), Ok None) | Some a => jmp m (fst (forward m st1 x)) x (Some y) (Some a) Input end).
        set (call2 := match acc with None => (fst (forward m st2 x), Ok None) | Some a => jmp m (fst (forward m st2 x)) x (Some y) (Some a) Input end).
        assert (J1 : coh m (fst call1) x) by (unfold call1; destruct acc as [a|]; auto; now apply (proj1 (jmp_keeps BF BPF) m _ _ Tm (Some y) (Some a) Input b)).
        assert (J2 : coh m (fst call2) x) by (unfold call2; destruct acc as [a|]; auto; now apply (proj1 (jmp_keeps BF BPF) m _ _ Tm (Some y) (Some a) Input b)).
        assert (Jr : snd call1 = snd call2) by (unfold call1, call2; destruct acc as [a|]; auto; now apply (IHm y (Some a) Input b)).
        destruct call1 as [k1 r1], call2 as [k2 r2]. cbn [fst snd] in *. subst r2. destruct (bind r1 _) as [[acc1 vp]|]; [|reflexivity].
        pose proof (IHm y (Some vp) Weight b k1 k2 x Hb Wx Sx J1 J2) as I1. cbn beta in *.
        destruct (jmp m k1 x _ (Some vp) Weight) as [k3 r3], (jmp m k2 x _ (Some vp) Weight) as [k4 r4]. cbn [snd] in I1. subst r4.
        destruct (bind r3 _) as [acc2|]; [|reflexivity].
        pose proof (Ib v (p + n_params m) acc2 b ks1 ks2 (hook_push true fm1 y) (hook_push true fm2 y) y Hb Wy Sy) as I2. cbn beta in *.
        destruct (seq_jmp_w jmp true ms ks1 y _ v _ acc2) as [[? ?] ?], (seq_jmp_w jmp true ms ks2 y _ v _ acc2) as [[? ?] ?]. exact I2.
  Qed.

  (** *** jmjTp *)
  Definition jmjTp_S (ms : list (module K)) s : Prop := forall fd td db,
    (forall v, same_seq ms s (fun fma ks k => seq_jmjTp_in jmjTp true fma ms ks k v fd td db)) /\
    (forall bs acc, same_seq ms s (fun fma ks k => seq_jmjTp_w jmjTp true fma ms ks k bs acc fd td db)).
  Lemma jmjTp_same_body ms s s' : typed_seq ms s s' -> jmjTp_S ms s -> forall y v w fd td db,
    same_m (Seq true ms) s (fun st x => jmjTp (Seq true ms) st x (Some y) v w fd td db).
  Proof.
    intros Ty IH y v w fd td db b st1 st2 x Hb Wx Sx [_ C1] [_ C2]. cbn [jmjTp ensure]. destruct (db_ok fd td db); auto.
    destruct w; auto.
    - destruct (match v with VNone => _ | _ => _ end) as [mt fd1]. destruct (IH fd1 td db) as [A _].
      specialize (A mt b (st_fm st1) (st_fm st2) 0 _ _ (st_kids st1) (st_kids st2) x Hb Wx Sx C1 eq_refl C2 eq_refl). cbn beta in *.
      destruct (seq_jmjTp_in jmjTp true (st_fm st1) ms _ 0 mt fd1 td db), (seq_jmjTp_in jmjTp true (st_fm st2) ms _ 0 mt fd1 td db). exact A.
    - destruct (bind _ _) as [[bs fd1]|]; auto. destruct (IH fd1 td db) as [_ B].
      specialize (B bs VNone b (st_fm st1) (st_fm st2) 0 _ _ (st_kids st1) (st_kids st2) x Hb Wx Sx C1 eq_refl C2 eq_refl). cbn beta in *.
      destruct (seq_jmjTp_w jmjTp true (st_fm st1) ms _ 0 bs VNone fd1 td db), (seq_jmjTp_w jmjTp true (st_fm st2) ms _ 0 bs VNone fd1 td db). exact B.
  Qed.
  Lemma jmjTp_same :
    (forall m s s', typed m s s' -> forall y v w fd td db, same_m m s (fun st x => jmjTp m st x (Some y) v w fd td db)) /\
    (forall ms s s', typed_seq ms s s' -> jmjTp_S ms s).
  Proof.
    apply typed_both.
    - intros l s s' Ty y v w fd td db b st1 st2 x Hb Wx Sx C1 C2. reflexivity.
    - intros cfg s s' Ty y v w fd td db b st1 st2 x Hb Wx Sx C1 C2. reflexivity.
    - intros ms s s' Ty IH. now apply (jmjTp_same_body ms s s').
    - intros ms c c' r Ty IH y v w fd td db b st1 st2 x Hb Wx Sx [K1 C1] [K2 C2].
      pose proof (fun y => jmjTp_same_body ms _ _ Ty IH y v w fd td db b (st_kid st1) (st_kid st2) x Hb Wx Sx C1 C2) as I1.
      pose proof (fun y st C => proj1 (jmjTp_keeps BF BPF) _ _ _ (ty_seq _ _ _ Ty) y v w fd td db b st x Hb Wx Sx C) as Q1.
      pose proof (fun y v w sta stb Ca Cb => proj1 jmp_same _ _ _ (ty_seq _ _ _ Ty) y v w b sta stb x Hb Wx Sx Ca Cb) as M1.
      pose proof (fun y v w st C => proj1 (jmp_keeps BF BPF) _ _ _ (ty_seq _ _ _ Ty) y v w b st x Hb Wx Sx C) as P1.
      cbn beta in *. remember (Seq true ms) as F. cbn [jmjTp ensure]. destruct (db_ok fd td db); auto.
      destruct (bind (Ok y) _) as [[[[b0 l1] l2] t]|]; auto. specialize (I1 t). pose proof (Q1 (Some t) _ C1) as C1'. pose proof (Q1 (Some t) _ C2) as C2'.
      destruct (jmjTp F (st_kid st1) x _ v w fd td db) as [k1 r1], (jmjTp F (st_kid st2) x _ v w fd td db) as [k2 r2]. cbn [fst snd] in *. subst r2.
      destruct r1 as [j|]; [|reflexivity]. destruct w; try reflexivity. destruct td; [reflexivity|]. destruct (bind (to_tensor v) _) as [mt|]; [|reflexivity].
      change (st_kid (set_kid st1 k1)) with k1. change (st_kid (set_kid st2 k2)) with k2. pose proof (M1 t (Some mt) Input _ _ C1' C2') as I2.
      pose proof (P1 (Some t) (Some mt) Input _ C1') as C1''. pose proof (P1 (Some t) (Some mt) Input _ C2') as C2''.
      destruct (jmp F k1 x (Some t) (Some mt) Input) as [k3 r3], (jmp F k2 x (Some t) (Some mt) Input) as [k4 r4]. cbn [fst snd] in *. subst r4.
      destruct (bind r3 _) as [jm|]; [|reflexivity]. destruct fd; [reflexivity|]. destruct (transpose12 n0 mt) as [mtT|]; [|reflexivity].
      change (st_kid (set_kid (set_kid st1 k1) k3)) with k3. change (st_kid (set_kid (set_kid st2 k2) k4)) with k4. pose proof (M1 t (Some mtT) Input _ _ C1'' C2'') as I3.
      destruct (jmp F k3 x (Some t) (Some mtT) Input) as [k5 r5], (jmp F k4 x (Some t) (Some mtT) Input) as [k6 r6]. cbn [fst snd] in *. now subst r6.
    - intros s Hs fd td db. split; intros; intros b fma1 fma2 k fm1 fm2 ks1 ks2 x Hb Wx Sx [-> _] _ _ _; reflexivity.
    - intros m ms s s1 s2 Tm IHm Ts IHs fd td db. destruct (IHs fd td db) as [Ia Ib].
      split; intros; intros b fma1 fma2 k fm1 fm2 ksa ksb x Hb Wx Sx C1 Sk1 C2 Sk2; open2 C1 C2;
      destruct (typed_fwd_y BF BPF _ _ _ b x y Tm Hb Wx Sx Fy) as [Wy Sy]; destruct (fmaps_ok fma1 fma1 k _ _ _ Sk1) as [Ef1 Sk1']; destruct (fmaps_ok fma2 fma2 k _ _ _ Sk2) as [Ef2 Sk2'].
      + cbn [seq_jmjTp_in kid_split]. rewrite Ef1, Ef2. set (td' := match ms with [] => td | _ => db end). set (fd' := if Nat.eqb k 0 then fd else db).
        pose proof (IHm y v Input fd' td' db b st1 st2 x Hb Wx Sx Cm1 Cm2) as I1. cbn beta in *.
        destruct (jmjTp m st1 x _ v Input fd' td' db) as [ka ra], (jmjTp m st2 x _ v Input fd' td' db) as [kb rb]. cbn [snd] in I1. subst rb.
        destruct ra as [v1|]; auto. specialize (Ia v1 b fma1 fma2 (S k) _ _ ks1 ks2 y Hb Wy Sy Cs1 Sk1' Cs2 Sk2'). cbn beta in *.
        destruct (seq_jmjTp_in jmjTp true fma1 ms ks1 _ v1 fd td db), (seq_jmjTp_in jmjTp true fma2 ms ks2 _ v1 fd td db). exact Ia.
      + cbn [seq_jmjTp_w kid_split]. rewrite Ef1, Ef2. set (td' := match ms with [] => td | _ => db end).
        set (call := fun st0 : st K => match acc with VNone => (st0, Ok VNone) | a => jmjTp m st0 x (Some y) a Input db td' db end).
        change (match acc with VNone => (st1, Ok VNone) | a => jmjTp m st1 x (Some y) a Input db td' db end) with (call st1).
        change (match acc with VNone => (st2, Ok VNone) | a => jmjTp m st2 x (Some y) a Input db td' db end) with (call st2).
        assert (J0 : forall st0, coh m st0 x -> coh m (fst (call st0)) x)
          by (intros st0 C0; unfold call; destruct acc; auto; now apply (proj1 (jmjTp_keeps BF BPF) m _ _ Tm (Some y) _ Input db td' db b)).
        assert (Jr : snd (call st1) = snd (call st2)) by (unfold call; destruct acc; auto; now apply (IHm y _ Input db td' db b)).
        pose proof (J0 st1 Cm1) as J1. pose proof (J0 st2 Cm2) as J2. destruct (call st1) as [ka ra], (call st2) as [kb rb]. cbn [fst snd] in *. subst rb.
        destruct ra as [acc1|]; auto. destruct (Nat.eqb (n_params m) 0).
        * specialize (Ib bs acc1 b fma1 fma2 (S k) _ _ ks1 ks2 y Hb Wy Sy Cs1 Sk1' Cs2 Sk2'). cbn beta in *.
          destruct (seq_jmjTp_w jmjTp true fma1 ms ks1 _ bs acc1 fd td db), (seq_jmjTp_w jmjTp true fma2 ms ks2 _ bs acc1 fd td db). exact Ib.
        * cbn [bind]. destruct bs as [|b1 bs]; auto.
          pose proof (IHm y b1 Weight fd td' db b ka kb x Hb Wx Sx J1 J2) as I1. cbn beta in *.
          destruct (jmjTp m ka x _ b1 Weight fd td' db) as [kc rc], (jmjTp m kb x _ b1 Weight fd td' db) as [kd rd]. cbn [snd] in I1. subst rd.
          destruct (bind rc _) as [acc2|]; auto.
          specialize (Ib bs (of_opt acc2) b fma1 fma2 (S k) _ _ ks1 ks2 y Hb Wy Sy Cs1 Sk1' Cs2 Sk2'). cbn beta in *.
          destruct (seq_jmjTp_w jmjTp true fma1 ms ks1 _ bs (of_opt acc2) fd td db), (seq_jmjTp_w jmjTp true fma2 ms ks2 _ bs (of_opt acc2) fd td db). exact Ib.
  Qed.
End Sim.
