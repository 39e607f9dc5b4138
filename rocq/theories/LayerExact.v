(** Upsample and user-defined layers: the products against derivatives written out by coordinates. *)
From Coq Require Import String Ascii List Arith ZArith Lia Bool.
From Verif Require Import Scalar Sums Tensor TensorLemmas EinsumLemmas Conv Abstract Simple LinearLayer ConvLayer PoolLayer
  Module Spec OpLemmas ReshapeLemmas Jac LeafSpec LeafSimple LeafAct LeafUpsample.
Import ListNotations.
Local Open Scope nat_scope.
Local Open Scope list_scope.

(** J is the Jacobian of nearest up-sampling by k: output pixel (o, y, z) copies input pixel (o, y / k, z / k) *)
Definition is_up_dx {K} `{Num K} (k b c h w : nat) (J : tensor K) : Prop :=
  forall q o y z o' y1 z1, q < b -> o < c -> y < h * k -> z < w * k -> o' < c -> y1 < h -> z1 < w ->
  entry J q ((o * (h * k) + y) * (w * k) + z) ((o' * h + y1) * w + z1) =
    if (o =? o') && (y / k =? y1) && (z / k =? z1) then n1 else n0.

(** J M J instead of J^T M J *)
Definition sandwich {K} `{Num K} (b n : nat) (J : nat -> nat -> nat -> K) (fd td : bool) (M : tensor K) : tensor K :=
  present td b n (fun q j l => bsum n (fun i => bsum n (fun k => nmul (nmul (J q j i) (metric fd M q i k)) (J q k l)))).

Section LE.
  Context {K} `{CR : CRing K}.
  Add Ring Kring : (cring : ring_theory n0 n1 nadd nmul nsub nopp (@eq K)).
  Notation gt := (get (@n0 K _)).
  Notation T := (tensor K).

  Lemma chw_inj h w a y z a' y' z' : y < h -> z < w -> y' < h -> z' < w -> chw h w a y z = chw h w a' y' z' -> a = a' /\ y = y' /\ z = z'.
  Proof.
    intros Hy Hz Hy' Hz' E. assert (E1 := f_equal (fun i => i / (h * w)) E). assert (E2 := f_equal (fun i => i mod (h * w) / w) E).
    assert (E3 := f_equal (fun i => i mod w) E). cbn beta in *. rewrite !chw_div in E1 by auto. rewrite !chw_divmod in E2 by auto.
    rewrite !chw_mod in E3 by auto. auto.
  Qed.
  Lemma up_exact k sd c h w b (x : T) : 0 < k -> 0 < sd -> 0 < c -> 0 < h -> 0 < w -> 0 < b -> wf x -> shape x = [b; c; h; w] ->
    let l := Leaf (Upsample (k * sd) sd) in let m := c * (h * k) * (w * k) in let n := c * h * w in
    exists J y : T, wf J /\ shape J = [b; m; n] /\ is_up_dx k b c h w J /\
      fwd l x = Ok y /\ shape y = [b; c; h * k; w * k] /\
      (forall q o i j, q < b -> o < c -> i < h * k -> j < w * k -> gt y [q; o; i; j] = gt x [q; o; i / k; j / k]) /\
      forall (s : st K) val, val = None \/ val = Some y ->
        snd (jacobian l s x val Input) = Ok (Some J) /\ snd (jacobian l s x val Weight) = Ok None /\
        (forall v, wf v -> shape v = [b; m] ->
           snd (vjp l s x val v Input) = Ok (Some (vJ b m n (entry J) v)) /\ snd (vjp l s x val v Weight) = Ok None) /\
        (forall r M, 0 < r -> wf M -> shape M = [b; r; m] ->
           snd (mjp l s x val (Some M) Input) = Ok (Some (MJ b r m n (entry J) M)) /\ snd (mjp l s x val (Some M) Weight) = Ok None) /\
        (forall fd td M, wf M -> shape M = metric_shape fd b m ->
           snd (jTmjp l s x val (VT M) Input fd td false) = Ok (VT (pull b m n (entry J) fd td M)) /\
           snd (jTmjp l s x val (VT M) Weight fd td false) = Ok VNone).
  Proof.
    intros Hk Hsd Hc Hh Hw Hb Wx Sx l m n.
    assert (Ek : k * sd / sd = k) by (apply Nat.div_mul; lia).
    assert (Hhk : 0 < h * k) by (apply Nat.mul_pos_pos; auto). assert (Hwk : 0 < w * k) by (apply Nat.mul_pos_pos; auto).
    assert (E1 : numel [c; h; w] = n) by (unfold n; numels; ring).
    assert (E2 : numel [c; h * k; w * k] = m) by (unfold m; numels; ring).
    assert (Ty : leaf_typed (K := K) (Upsample (k * sd) sd) [c; h; w] [c; h * k; w * k]).
    { unfold leaf_typed. rewrite E1, E2, Ek. repeat split; auto; unfold n, m; repeat apply Nat.mul_pos_pos; auto. }
    destruct (upsample_spec _ _ _ _ Ty) as (F & J & V & M & P). destruct (F b x Hb Wx Sx) as (y & Fy & Wy & Sy).
    set (JX := leaf_JX (Upsample (k * sd) sd) x).
    assert (JXe : JX = fun _ i j => delta (up_src k h w i) j). { unfold JX. cbn [leaf_JX]. unfold dim. rewrite Sx, Ek. reflexivity. }
    exists (dense b m n JX), y. split; [apply wf_tab|]. split; [reflexivity|]. split; [|split; [exact Fy|split; [exact Sy|split]]].
    - intros q o i j o' y1 z1 Hq Ho Hi Hj Ho' Hy1 Hz1. unfold entry, dense. change ((o * (h * k) + i) * (w * k) + j) with (chw (h * k) (w * k) o i j).
      change ((o' * h + y1) * w + z1) with (chw h w o' y1 z1).
      rewrite get_tab3; auto. 2: apply (chw_lt c (h * k) (w * k) o i j); auto. 2: apply (chw_lt c h w o' y1 z1); auto.
      rewrite JXe, up_src_chw by auto. assert (i / k < h) by (apply Nat.div_lt_upper_bound; lia). assert (j / k < w) by (apply Nat.div_lt_upper_bound; lia).
      destruct (Nat.eqb_spec o o') as [->|No]; [destruct (Nat.eqb_spec (i / k) y1) as [Ei|Ni]; [destruct (Nat.eqb_spec (j / k) z1) as [Ej|Nj]|]|]; cbn [andb].
      + rewrite Ei, Ej. unfold delta. now rewrite Nat.eqb_refl.
      + apply delta_neq. intros E. apply chw_inj in E; intuition.
      + apply delta_neq. intros E. apply chw_inj in E; intuition.
      + apply delta_neq. intros E. apply chw_inj in E; intuition.
    - intros q o i j Hq Ho Hi Hj. cbn [leaf_forward] in Fy. unfold up_forward, upsample_nearest in Fy. rewrite Sx in Fy.
      assert (Q : forall a, a * (k * sd) / sd = a * k) by (intros; rewrite Nat.mul_assoc; apply Nat.div_mul; lia). rewrite !Q in Fy.
      assert (Q' : forall a, a * sd / (k * sd) = a / k) by (intros; apply Nat.div_mul_cancel_r; lia).
      destruct ((0 <? k * sd) && (0 <? sd) && (0 <? h * k) && (0 <? w * k)); [|discriminate Fy]. cbn [check] in Fy. injection Fy as <-. rewrite get_tab4 by auto. rewrite !Q'.
      rewrite !Nat.min_l; auto; enough (i / k < h /\ j / k < w) by lia; split; apply Nat.div_lt_upper_bound; lia.
    - intros s val Hval.
      specialize (J b x y val Hb Wx Sx Fy Hval). specialize (V b x y val Hb Wx Sx Fy Hval).
      specialize (M b x y val Hb Wx Sx Fy Hval). specialize (P b x y val Hb Wx Sx Fy Hval).
      cbn beta in J, V, M, P. rewrite E1, E2 in *. cbn [leaf_n_params wopt Nat.eqb] in *. fold JX in J, V, M, P.
      assert (QX : Jeq b m n (entry (dense b m n JX)) JX). { intros q i j Hq Hi Hj. unfold entry, dense. now rewrite get_tab3. }
      unfold l. cbn [jacobian vjp mjp jTmjp snd to_opt bind].
      split; [exact (proj1 J)|]. split; [exact (proj2 J)|]. split; [|split].
      + intros v Wv Sv. rewrite (vJ_Jext _ _ _ _ _ v QX). exact (V v Wv Sv).
      + intros r a Hr Wm Sm. rewrite (MJ_Jext _ _ _ _ _ _ a QX). exact (M r a Hr Wm Sm).
      + intros fd td a Wm Sm. rewrite (pull_Jext _ _ _ _ _ _ _ a QX). destruct (P fd td false a ltac:(discriminate) Wm Sm) as [V1 V2].
        rewrite V1, V2. auto.
  Qed.

  (** a user-defined layer, at an input where its jacobian returns J *)
  Lemma custom_exact (cu : custom K) x val w (J : T) b m n (s : st K) :
    cu_jacobian cu x val w = Ok (Some J) -> shape J = [b; m; n] ->
    let l := Leaf (Custom cu) in
    snd (jacobian l s x val w) = Ok (Some J) /\
    (forall v, shape v = [b; n] -> snd (jvp l s x val v w) = Ok (Some (Jv b m n (entry J) v))) /\
    (forall c M, shape M = [b; n; c] -> snd (jmp l s x val (Some M) w) = Ok (Some (JM b m n c (entry J) M))) /\
    (forall v, shape v = [b; m] -> snd (vjp l s x val v w) = Ok (Some (vJ b m n (entry J) v))) /\
    (forall r M, shape M = [b; r; m] -> snd (mjp l s x val (Some M) w) = Ok (Some (MJ b r m n (entry J) M))) /\
    (forall fd td db M, flags_ok fd td db -> shape M = metric_shape fd b n ->
       snd (jmjTp l s x val (VT M) w fd td db) = Ok (VT (push b m n (entry J) fd td M))) /\
    (forall M, shape M = [b; m; m] -> snd (jTmjp l s x val (VT M) w false false false) = Ok (VT (pull b m n (entry J) false false M))).
  Proof.
    intros HJ SJ l. unfold l. cbn [jacobian jvp jmp vjp mjp jmjTp jTmjp leaf_jacobian leaf_jvp leaf_jmp leaf_vjp leaf_mjp leaf_jmjTp leaf_jTmjp snd to_opt bind].
    split; [exact HJ|]. split; [intros v Sv; erewrite aj_jvp_ok by eauto; reflexivity|].
    split; [intros c M SM; erewrite aj_jmp_ok by eauto; reflexivity|].
    split; [intros v Sv; erewrite aj_vjp_ok by eauto; reflexivity|].
    split; [intros c M SM; erewrite aj_mjp_ok by eauto; reflexivity|].
    split; [intros fd td db M F SM; erewrite aj_jmjTp_ok by eauto; reflexivity|].
    intros M SM; erewrite aj_jTmjp_full by eauto; reflexivity.
  Qed.
  Lemma custom_sym_exact (cu : custom K) x val w (J : T) b n (s : st K) :
    cu_jacobian cu x val w = Ok (Some J) -> shape J = [b; n; n] ->
    (forall q i j, q < b -> i < n -> j < n -> entry J q i j = entry J q j i) ->
    forall fd td db M, flags_ok fd td db -> shape M = metric_shape fd b n ->
      snd (jTmjp (Leaf (Custom cu)) s x val (VT M) w fd td db) = Ok (VT (pull b n n (entry J) fd td M)).
  Proof.
    intros HJ SJ Sy fd td db M F SM. cbn [jTmjp leaf_jTmjp snd to_opt bind]. erewrite aj_jTmjp_sym by eauto. reflexivity.
  Qed.
  (** what the three diagonal modes compute *)
  Lemma custom_diag_modes (cu : custom K) x val w (J : T) b n (s : st K) :
    cu_jacobian cu x val w = Ok (Some J) -> shape J = [b; n; n] ->
    forall fd td db M, flags_ok fd td db -> fd || td = true -> shape M = metric_shape fd b n ->
      snd (jTmjp (Leaf (Custom cu)) s x val (VT M) w fd td db) = Ok (VT (sandwich b n (entry J) fd td M)).
  Proof.
    intros HJ SJ fd td db M F Fl S. cbn [jTmjp leaf_jTmjp snd to_opt bind]. unfold aj_jTmjp.
    replace (if db then (true, true) else (fd, td)) with (fd, td)
      by (destruct db; [destruct F as [-> ->]|]; reflexivity).
    rewrite HJ. cbn [bind need].
    assert (Dg : forall q i l, bsum n (fun j => nmul (nmul (gt J [q; i; j]) (gt M [q; j])) (gt J [q; j; l])) =
      bsum n (fun j => bsum n (fun k => nmul (nmul (entry J q i j) (if j =? k then gt M [q; j] else n0)) (entry J q k l)))).
    { intros q i l. apply bsum_ext. intros j Hj. symmetry. rewrite (bsum_ext n _ (fun k => nmul (delta j k) (nmul (nmul (entry J q i j) (gt M [q; j])) (entry J q k l)))).
      - now rewrite (bsum_delta_l n j (fun k => nmul (nmul (entry J q i j) (gt M [q; j])) (entry J q k l))).
      - intros k Hk. unfold delta. destruct (Nat.eqb_spec j k); ring. }
    destruct fd, td; cbn [metric_shape] in S; cbn [some bind]; try discriminate.
    - erewrite es_bij_bj_bji_to_bi by sh. cbn. do 2 f_equal. apply tab2_ext. intros q i Hq Hi. apply Dg.
    - erewrite es_bij_bj_bjl_to_bil by sh. cbn. do 2 f_equal. apply tab3_ext. intros q i l Hq Hi Hl. apply Dg.
    - erewrite es_bij_bjk_bki_to_bi by sh. reflexivity.
  Qed.
End LE.
