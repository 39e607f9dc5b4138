(** Upsample in bilinear mode and with fractional scale factors: exactly when the returned matrices are derivatives. *)
From Coq Require Import List Arith ZArith Lia Bool Reals Lra.
From Verif Require Import Scalar Sums Tensor TensorLemmas Conv Abstract Simple LinearLayer ConvLayer PoolLayer Module Spec Domain Jac
  OpLemmas ReshapeLemmas LeafSpec LeafUpsample LayerExact Smooth Calc DerivLeaf Deriv LinDeriv LoudSpec UpModes.
Import ListNotations.
Local Open Scope nat_scope.
Local Open Scope list_scope.
Local Opaque derivable_pt_lim.

(** the products look at val only through its shape, and at the factor only through its integer part *)
Section Shape.
  Context {K} `{Num K}.
  Notation T := (tensor K).
  Variables (sn sd sn' sd' : nat) (x y y' : T).
  Hypothesis (Ek : iscale sn sd = iscale sn' sd') (Ey : shape y = shape y').
  Lemma up_conv_same a : up_conv sn sd a = up_conv sn' sd' a.
  Proof. unfold up_conv. now rewrite Ek. Qed.
  Ltac conv_same := repeat (match goal with |- context [bind ?r _] => destruct r as [?|]; [|reflexivity] end; cbn [bind]).
  Lemma unpack_same : unpack4 y = unpack4 y'.
  Proof. unfold unpack4. now rewrite Ey. Qed.
  Lemma up_mjp_some_same M : up_mjp_some sn sd x y M = up_mjp_some sn' sd' x y' M.
  Proof.
    unfold up_mjp_some. rewrite unpack_same. destruct (unpack4 x) as [[[[b c1] h1] w1]|]; [|reflexivity]. cbn [bind].
    destruct (unpack4 y') as [[[[? c2] h2] w2]|]; [|reflexivity]. cbn [bind]. unfold check. destruct (c1 =? c2); [|reflexivity].
    destruct (size 0 M); [|reflexivity]. cbn [bind]. destruct (size 2 M); [|reflexivity]. cbn [bind]. destruct (_ && _); [|reflexivity].
    destruct (size 1 M); [|reflexivity]. cbn [bind]. destruct reshape; [|reflexivity]. cbn [bind]. now rewrite up_conv_same.
  Qed.
  Lemma up_jacobian_same w : up_jacobian sn sd x (Some y) w = up_jacobian sn' sd' x (Some y') w.
  Proof.
    unfold up_jacobian. destruct w; auto. cbn [up_val bind]. rewrite unpack_same. destruct (unpack4 x) as [[[[b c1] h1] w1]|]; [|reflexivity]. cbn [bind].
    destruct (unpack4 y') as [[[[? c2] h2] w2]|]; [|reflexivity]. cbn [bind]. unfold check. destruct (c1 =? c2); [|reflexivity].
    destruct diag_embed; [|reflexivity]. cbn [bind]. now rewrite up_mjp_some_same.
  Qed.
  Lemma up_mjp_same M w : up_mjp sn sd x (Some y) M w = up_mjp sn' sd' x (Some y') M w.
  Proof.
    unfold up_mjp. destruct M as [M|]; [|apply up_jacobian_same]. destruct w; auto. cbn [up_val bind]. now rewrite up_mjp_some_same.
  Qed.
  Lemma up_vjp_same v w : up_vjp sn sd x (Some y) v w = up_vjp sn' sd' x (Some y') v w.
  Proof.
    unfold up_vjp. destruct w; auto. cbn [up_val bind]. rewrite unpack_same. destruct (unpack4 x) as [[[[b c1] h1] w1]|]; [|reflexivity]. cbn [bind].
    destruct (unpack4 y') as [[[[? c2] h2] w2]|]; [|reflexivity]. cbn [bind]. unfold check. destruct (c1 =? c2); [|reflexivity].
    destruct shape_eqb; [|reflexivity]. destruct reshape; [|reflexivity]. cbn [bind]. now rewrite up_conv_same.
  Qed.
  Lemma up_full_same M : up_jTmjp_full sn sd x y M = up_jTmjp_full sn' sd' x y' M.
  Proof.
    unfold up_jTmjp_full. rewrite unpack_same. destruct (unpack4 x) as [[[[b c1] h1] w1]|]; [|reflexivity]. cbn [bind].
    destruct (unpack4 y') as [[[[? c2] h2] w2]|]; [|reflexivity]. cbn [bind].
    destruct reshape; [|reflexivity]. cbn [bind]. destruct reshape; [|reflexivity]. cbn [bind]. rewrite up_conv_same.
    destruct (up_conv sn' sd' a0); [|reflexivity]. cbn [bind]. destruct reshape; [|reflexivity]. cbn [bind]. destruct reshape; [|reflexivity]. cbn [bind].
    now rewrite up_conv_same.
  Qed.
  Lemma up_dd_same M : up_jTmjp_dd sn sd x y M = up_jTmjp_dd sn' sd' x y' M.
  Proof.
    unfold up_jTmjp_dd. rewrite unpack_same. destruct (unpack4 x) as [[[[b c1] h1] w1]|]; [|reflexivity]. cbn [bind].
    destruct (unpack4 y') as [[[[? c2] h2] w2]|]; [|reflexivity]. cbn [bind]. destruct reshape; [|reflexivity]. cbn [bind]. now rewrite up_conv_same.
  Qed.
  Lemma up_jTmjp_same M w fd td db : up_jTmjp sn sd x (Some y) M w fd td db = up_jTmjp sn' sd' x (Some y') M w fd td db.
  Proof.
    unfold up_jTmjp. cbn [up_val bind]. rewrite unpack_same, Ey. destruct (unpack4 x) as [[[[b c1] h1] w1]|]; [|reflexivity]. cbn [bind].
    destruct (unpack4 y') as [[[[? c2] h2] w2]|]; [|reflexivity]. cbn [bind]. unfold check. destruct (c1 =? c2); [|reflexivity].
    match goal with |- bind ?r _ = _ => destruct r as [[m fd']|]; [|reflexivity] end. cbn [bind]. destruct shape_eqb; [|reflexivity].
    destruct w, fd', td; auto; rewrite ?up_dd_same, ?up_full_same; auto.
    - destruct diag_embed; [|reflexivity]. cbn [bind]. now rewrite up_full_same.
  Qed.
End Shape.

(** a layer that combines the pixels of each channel with weights wy along the rows and wz along the columns *)
Section Separable.
  Variables (c h w H W : nat) (wy wz : nat -> nat -> R) (f : TR -> res TR) (b : nat) (x J : TR).
  Hypothesis (Wx : wf x) (Sx : shape x = [b; c; h; w]) (WJ : wf J) (SJ : shape J = [b; c * H * W; c * h * w]).
  Hypothesis Sf : forall t, wf t -> shape t = [b; c; h; w] -> exists y, f t = Ok y /\ wf y /\ shape y = [b; c; H; W] /\
    forall q o i j, q < b -> o < c -> i < H -> j < W ->
      gt y [q; o; i; j] = bsum h (fun i1 => wy i i1 * bsum w (fun j1 => wz j j1 * gt t [q; o; i1; j1]))%R.
  Definition sepA (i j : nat) : R :=
    ((if i / (H * W) =? j / (h * w) then 1 else 0) * (wy (i mod (H * W) / W) (j mod (h * w) / w) * wz (i mod W) (j mod w)))%R.
  Lemma sepA_chw o y z o' y1 z1 : y < H -> z < W -> y1 < h -> z1 < w ->
    sepA (chw H W o y z) (chw h w o' y1 z1) = if o =? o' then (wy y y1 * wz z z1)%R else 0%R.
  Proof. intros. unfold sepA. rewrite !chw_div, !chw_divmod, !chw_mod by auto. destruct (o =? o'); ring. Qed.
  Lemma sep_derivative : derivative_at f x [c; H; W] J <->
    forall q o y z o' y1 z1, q < b -> o < c -> y < H -> z < W -> o' < c -> y1 < h -> z1 < w ->
      entry J q (chw H W o y z) (chw h w o' y1 z1) = if o =? o' then (wy y y1 * wz z z1)%R else 0%R.
  Proof.
    assert (E1 : numel [c; h; w] = c * h * w) by (numels; ring). assert (E2 : numel [c; H; W] = c * H * W) by (numels; ring).
    rewrite (linear_derivative f b [c; h; w] [c; H; W] sepA x J Wx Sx WJ).
    - rewrite E1, E2. split.
      + intros E q o y z o' y1 z1 Hq Ho Hy Hz Ho' Hy1 Hz1. rewrite E; auto using chw_lt. now apply sepA_chw.
      + intros E q i j Hq Hi Hj. destruct (chw_ex _ _ _ _ Hi) as (o & y & z & Ho & Hy & Hz & ->).
        destruct (chw_ex _ _ _ _ Hj) as (o' & y1 & z1 & Ho' & Hy1 & Hz1 & ->). rewrite E, sepA_chw by auto. reflexivity.
    - now rewrite E1, E2.
    - intros t Wt St. destruct (Sf t Wt St) as (y & F & Wy & Sy & V). exists y. split; [exact F|]. split; [exact Wy|]. split; [exact Sy|].
      intros q i Hq Hi. rewrite E2 in Hi. destruct (chw_ex _ _ _ _ Hi) as (o & i0 & j0 & Ho & Hi0 & Hj0 & ->).
      rewrite <- (fl_get4 y b c H W) by auto. rewrite V by auto. rewrite E1.
      symmetry. etransitivity; [exact (@bsum_chw R _ _ c h w _)|].
      etransitivity; [apply (@bsum_single R _ _ c o); auto|].
      { intros o' Ho' N. apply (@bsum_0 R _ _). intros y1 Hy1. apply (@bsum_0 R _ _). intros z1 Hz1. rewrite sepA_chw by auto.
        destruct (Nat.eqb_spec o o'); [congruence|]. apply Rmult_0_l. }
      apply bsum_ext. intros y1 Hy1. rewrite <- bsumR_mul_l. apply bsum_ext. intros z1 Hz1. rewrite sepA_chw by auto.
      rewrite Nat.eqb_refl. rewrite <- E1. rewrite <- (fl_get4 t b c h w) by auto. ring.
  Qed.
End Separable.

(** *** bilinear mode *)
Definition bi_w (s n y i : nat) : R := ((1 - @bi_frac R _ s y) * delta (bi_lo s y) i + @bi_frac R _ s y * delta (bi_hi s n y) i)%R.
Lemma bi_lo_lt s n y : 0 < s -> y < n * s -> bi_lo s y < n.
Proof. intros Hs Hy. unfold bi_lo, bi_pos. apply Nat.div_lt_upper_bound; [lia|]. nia. Qed.
Lemma bi_hi_lt s n y : 0 < n -> bi_hi s n y < n.
Proof. intros. unfold bi_hi. lia. Qed.
Lemma bi_w_sum s n y g : 0 < s -> y < n * s ->
  bsum n (fun i => bi_w s n y i * g i)%R = ((1 - @bi_frac R _ s y) * g (bi_lo s y) + @bi_frac R _ s y * g (bi_hi s n y))%R.
Proof.
  intros Hs Hy. assert (0 < n) by (destruct n; lia). pose proof (bi_lo_lt s n y Hs Hy). pose proof (bi_hi_lt s n y ltac:(auto)).
  rewrite <- (bsumR_delta n (bi_lo s y) g), <- (bsumR_delta n (bi_hi s n y) g) by auto. rewrite <- !bsumR_mul_l, <- bsumR_add.
  apply bsum_ext. intros i Hi. unfold bi_w. ring.
Qed.
Lemma bi_frac_0 s y : bi_pos s y mod (2 * s) = 0 -> @bi_frac R _ s y = 0%R.
Proof. intros E. unfold bi_frac. rewrite E. cbn [nnat ndiv Num_R]. unfold Rdiv. apply Rmult_0_l. Qed.
Lemma bi_w_right s n y i : 0 < s -> s = 1 \/ n = 1 -> y < n * s -> i < n -> bi_w s n y i = if y / s =? i then 1%R else 0%R.
Proof.
  intros Hs [->| ->] Hy Hi; unfold bi_w.
  - rewrite bi_frac_0 by (unfold bi_pos; replace (2 * y + 1 - 1) with (y * 2) by lia; apply Nat.mod_mul; lia).
    unfold bi_lo, bi_pos. replace (2 * y + 1 - 1) with (y * (2 * 1)) by lia. rewrite Nat.div_mul, Nat.div_1_r by lia.
    unfold delta. cbn [n0 n1 Num_R]. destruct (y =? i); ring.
  - assert (i = 0) by lia. subst i. rewrite Nat.div_small by lia.
    assert (L : bi_lo s y = 0) by (unfold bi_lo, bi_pos; apply Nat.div_small; lia).
    assert (U : bi_hi s 1 y = 0) by (unfold bi_hi; lia). rewrite L, U, delta_refl. cbn [Nat.eqb n1 Num_R]. ring.
Qed.
(** the first column of weights, and a weight the nearest mode does not have *)
Lemma bi_w_00 s n : 0 < s -> bi_w s n 0 0 = 1%R.
Proof.
  intros Hs. unfold bi_w. assert (E : bi_pos s 0 = 0) by (unfold bi_pos; lia).
  rewrite bi_frac_0 by (rewrite E; apply Nat.mod_0_l; lia). unfold bi_lo. rewrite E, Nat.div_0_l, delta_refl by lia. cbn [n1 Num_R]. ring.
Qed.
Lemma bi_w_wrong s n : 1 < s -> 1 < n -> bi_w s n (s - 1) 1 <> 0%R.
Proof.
  intros Hs Hn. unfold bi_w. assert (E : bi_pos s (s - 1) = s - 1) by (unfold bi_pos; lia).
  assert (L : bi_lo s (s - 1) = 0) by (unfold bi_lo; rewrite E; apply Nat.div_small; lia).
  assert (U : bi_hi s n (s - 1) = 1) by (unfold bi_hi; rewrite L; lia). rewrite L, U, delta_refl, delta_neq by lia.
  unfold bi_frac. rewrite E, Nat.mod_small by lia. cbn [n0 n1 ndiv Num_R]. rewrite !nnat_R.
  assert (0 < INR (s - 1))%R by (apply lt_0_INR; lia). assert (0 < INR (2 * s))%R by (apply lt_0_INR; lia).
  rewrite Rmult_0_r, Rplus_0_l, Rmult_1_r. apply Rgt_not_eq. apply Rdiv_lt_0_compat; auto.
Qed.

Lemma bilinear_exact s c h w b (x : TR) : 0 < s -> 0 < c -> 0 < h -> 0 < w -> 0 < b -> wf x -> shape x = [b; c; h; w] ->
  let m := c * (h * s) * (w * s) in let n := c * h * w in
  exists J y : TR, bi_forward s x = Ok y /\ wf J /\ shape J = [b; m; n] /\
    (derivative_at (bi_forward s) x [c; h * s; w * s] J <-> s = 1 \/ (h = 1 /\ w = 1)) /\
    forall val, val = None \/ val = Some y ->
      bi_jacobian s x val Input = Ok (Some J) /\
      (forall v, wf v -> shape v = [b; m] -> bi_vjp s x val v Input = Ok (Some (vJ b m n (entry J) v))) /\
      (forall r M, 0 < r -> wf M -> shape M = [b; r; m] -> bi_mjp s x val (Some M) Input = Ok (Some (MJ b r m n (entry J) M))) /\
      (forall fd td M, wf M -> shape M = metric_shape fd b m ->
         bi_jTmjp s x val (Some M) Input fd td false = Ok (Some (pull b m n (entry J) fd td M))).
Proof.
  intros Hs Hc Hh Hw Hb Wx Sx m n.
  destruct (up_exact (K := R) s 1 c h w b x Hs ltac:(lia) Hc Hh Hw Hb Wx Sx) as (J & y & WJ & SJ & IJ & Fy & Sy & _ & P).
  rewrite !Nat.mul_1_r in *. fold m n in SJ.
  assert (BF : forall t, wf t -> shape t = [b; c; h; w] -> exists y, bi_forward s t = Ok y /\ wf y /\ shape y = [b; c; h * s; w * s] /\
    forall q o i j, q < b -> o < c -> i < h * s -> j < w * s ->
      gt y [q; o; i; j] = bsum h (fun i1 => bi_w s h i i1 * bsum w (fun j1 => bi_w s w j j1 * gt t [q; o; i1; j1]))%R).
  { intros t Wt St. unfold bi_forward. rewrite St. replace ((0 <? s) && (0 <? h) && (0 <? w)) with true
      by (symmetry; repeat (apply andb_true_intro; split); now apply Nat.ltb_lt).
    eexists. split; [reflexivity|]. split; [apply wf_tab|]. split; [reflexivity|]. intros q o i j Hq Ho Hi Hj.
    rewrite get_tab4 by auto. etransitivity; [|symmetry; exact (bi_w_sum s h i (fun i1 => bsum w (fun j1 => bi_w s w j j1 * gt t [q; o; i1; j1])%R) Hs Hi)].
    cbv beta. rewrite !bi_w_sum by auto. reflexivity. }
  destruct (BF x Wx Sx) as (y' & Fy' & Wy' & Sy' & _). exists J, y'. split; [exact Fy'|]. split; [exact WJ|]. split; [exact SJ|]. split.
  - rewrite (sep_derivative c h w (h * s) (w * s) (bi_w s h) (bi_w s w) (bi_forward s) b x J Wx Sx WJ SJ BF). split.
    + intros E. destruct (Nat.eq_dec s 1) as [|Ns]; [now left|right].
      split.
      * destruct (Nat.eq_dec h 1) as [|Nh]; [auto|exfalso]. assert (H1 : s - 1 < h * s) by nia. assert (H2 : 0 < w * s) by nia.
        specialize (E 0 0 (s - 1) 0 0 1 0 Hb Hc H1 H2 Hc ltac:(lia) Hw). rewrite Nat.eqb_refl, bi_w_00, Rmult_1_r in E by auto.
        pose proof (IJ 0 0 (s - 1) 0 0 1 0 Hb Hc H1 H2 Hc ltac:(lia) Hw) as E'. rewrite (Nat.div_small (s - 1)) in E' by lia.
        cbn [Nat.eqb andb n0 Num_R] in E'. apply (bi_w_wrong s h); [lia|lia|]. rewrite <- E. exact E'.
      * destruct (Nat.eq_dec w 1) as [|Nh]; [auto|exfalso]. assert (H1 : 0 < h * s) by nia. assert (H2 : s - 1 < w * s) by nia.
        specialize (E 0 0 0 (s - 1) 0 0 1 Hb Hc H1 H2 Hc Hh ltac:(lia)). rewrite Nat.eqb_refl, bi_w_00, Rmult_1_l in E by auto.
        pose proof (IJ 0 0 0 (s - 1) 0 0 1 Hb Hc H1 H2 Hc Hh ltac:(lia)) as E'. rewrite (Nat.div_small (s - 1)) in E' by lia.
        rewrite Bool.andb_false_r in E'. apply (bi_w_wrong s w); [lia|lia|]. rewrite <- E. exact E'.
    + intros Q q o i j o' i1 j1 Hq Ho Hi Hj Ho' Hi1 Hj1. etransitivity; [exact (IJ q o i j o' i1 j1 Hq Ho Hi Hj Ho' Hi1 Hj1)|].
      rewrite !bi_w_right by tauto. cbn [n0 n1 Num_R]. destruct (o =? o'), (i / s =? i1), (j / s =? j1); cbn [andb]; ring.
  - intros val Hval. assert (Bv : bi_val s x val = Ok y'). { destruct Hval as [-> | ->]; auto. }
    assert (Sh : shape y' = shape y) by congruence.
    destruct (P st0 (Some y) (or_intror eq_refl)) as (P1 & _ & P2 & P3 & P4). split; [|split; [|split]].
    + unfold bi_jacobian. rewrite Bv. cbn [bind]. rewrite (up_jacobian_same s 1 s 1 x y' y eq_refl Sh). exact P1.
    + intros v Wv Sv. unfold bi_vjp. rewrite Bv. cbn [bind]. rewrite (up_vjp_same s 1 s 1 x y' y eq_refl Sh). exact (proj1 (P2 v Wv Sv)).
    + intros r M Hr WM SM. unfold bi_mjp. rewrite Bv. cbn [bind]. rewrite (up_mjp_same s 1 s 1 x y' y eq_refl Sh). exact (proj1 (P3 r M Hr WM SM)).
    + intros fd td M WM SM. unfold bi_jTmjp. rewrite Bv. cbn [bind]. rewrite (up_jTmjp_same s 1 s 1 x y' y eq_refl Sh).
      pose proof (proj1 (P4 fd td M WM SM)) as Q. cbn [jTmjp snd to_opt bind leaf_jTmjp] in Q. revert Q.
      destruct up_jTmjp as [[z|]|]; cbn; try discriminate. intros Q. f_equal. f_equal. now injection Q.
Qed.
