(** Activations and L2Norm entry by entry. *)
From Coq Require Import List Arith Lia Bool Reals Lra.
From Verif Require Import Scalar Sums Tensor TensorLemmas Conv Abstract Simple LinearLayer ConvLayer PoolLayer Module Spec Domain Jac
  OpLemmas ReshapeLemmas LeafSpec LeafSimple LeafAct TreeBase Smooth Calc DerivLeaf Deriv.
Import ListNotations.
Local Open Scope nat_scope.
Local Open Scope list_scope.
Local Opaque derivable_pt_lim.

Lemma act_fun_spec (a : act R) v : act_fun a v = act_spec a v.
Proof.
  destruct a as [| | | |beta thr|]; cbn [act_fun act_spec]; auto.
  - destruct (Rlt_dec 0 v).
    + rewrite nltb_true by auto. symmetry. apply Rmax_right; cbn; lra.
    + rewrite nltb_false by (cbn; lra). symmetry. apply Rmax_left; cbn; lra.
  - unfold sigmoid. cbn. unfold Rdiv. ring.
  - cbn [nmul ndiv nln nexp n1 nadd Num_R]. destruct (Rlt_dec thr (beta * v)).
    + now rewrite nltb_true.
    + rewrite nltb_false by lra. unfold Rdiv. ring.
Qed.
Lemma act_entries (a : act R) b s (x : TR) : 0 < b -> wf x -> shape x = b :: s ->
  exists y D, act_forward a x = Ok y /\ act_jacobian a x None Input true = Ok (Some D) /\
    wf y /\ shape y = b :: s /\ wf D /\ shape D = [b; numel s] /\
    forall k, k < numel (b :: s) ->
      nth k (data y) 0%R = act_spec a (nth k (data x) 0%R) /\ nth k (data D) 0%R = act_d a (nth k (data x) 0%R).
Proof.
  intros Hb Wx Sx. exists (emap (act_fun a) x). eexists. split; [reflexivity|]. split.
  { unfold act_jacobian, act_forward. cbn [bind].
    rewrite (size0_x (emap (act_fun a) x) b s Sx). cbn [bind]. rewrite (act_deriv_eq a b s x).
    rewrite flat_ok with (s := s) by (auto; lia). reflexivity. }
  assert (Ww : forall f : R -> R, length (data (emap f x)) = numel (b :: s)).
  { intros f. unfold emap. cbn [data]. rewrite map_length, <- Sx. exact Wx. }
  split; [unfold wf; cbn [shape emap]; rewrite Sx; apply Ww|]. split; [exact Sx|].
  split; [unfold wf; cbn [shape data]; rewrite Ww, !numel_cons, numel_nil; ring|]. split; [reflexivity|].
  assert (Lx : length (data x) = numel (b :: s)) by (rewrite <- Sx; exact Wx).
  intros k Hk. cbn [data emap]. split.
  - rewrite (nth_indep _ _ (act_fun a 0%R)) by (rewrite map_length; lia). rewrite map_nth. apply act_fun_spec.
  - rewrite (nth_indep _ _ (act_d a 0%R)) by (rewrite map_length; lia). apply map_nth.
Qed.
Lemma dl_act_spec (a : act R) v : act_smooth a v -> derivable_pt_lim (act_spec a) v (act_d a v).
Proof. intros H. apply dl_ext with (f := act_fun a); [apply act_fun_spec|now apply dl_act]. Qed.

Lemma act_derivative (a : act R) b s (x : TR) : 0 < b -> wf x -> shape x = b :: s ->
  exists y D, act_forward a x = Ok y /\ act_jacobian a x None Input true = Ok (Some D) /\
    wf y /\ shape y = b :: s /\ wf D /\ shape D = [b; numel s] /\
    forall k, k < numel (b :: s) ->
      nth k (data y) 0%R = act_spec a (nth k (data x) 0%R) /\
      (act_smooth a (nth k (data x) 0%R) -> derivable_pt_lim (act_spec a) (nth k (data x) 0%R) (nth k (data D) 0%R)).
Proof.
  intros Hb Wx Sx. destruct (act_entries a b s x Hb Wx Sx) as (y & D & H1 & H2 & H3 & H4 & H5 & H6 & H7).
  exists y, D. do 6 (split; [assumption|]). intros k Hk. destruct (H7 k Hk) as [E1 E2]. split; auto. intros Sm. rewrite E2. now apply dl_act_spec.
Qed.
Lemma relu_at_zero b s (x : TR) : 0 < b -> wf x -> shape x = b :: s ->
  exists D, act_jacobian ReLU x None Input true = Ok (Some D) /\
    forall k, k < numel (b :: s) -> nth k (data x) 0%R = 0%R -> nth k (data D) 0%R = 0%R.
Proof.
  intros Hb Wx Sx. destruct (act_entries ReLU b s x Hb Wx Sx) as (y & D & H1 & H2 & H3 & H4 & H5 & H6 & H7).
  exists D. split; auto. intros k Hk E. destruct (H7 k Hk) as [_ ->]. rewrite E. cbn [act_d]. unfold npos.
  rewrite (nltb_false n0 0) by (cbn; lra). rewrite (nltb_false n0 n0) by (cbn; lra). reflexivity.
Qed.
Lemma truncexp_clamped b s (x : TR) : 0 < b -> wf x -> shape x = b :: s ->
  exists D, act_jacobian TruncExp x None Input true = Ok (Some D) /\
    forall k, k < numel (b :: s) ->
      nth k (data D) 0%R = exp (Rmax (-15) (Rmin 15 (nth k (data x) 0%R))).
Proof.
  intros Hb Wx Sx. destruct (act_entries TruncExp b s x Hb Wx Sx) as (y & D & H1 & H2 & H3 & H4 & H5 & H6 & H7).
  exists D. split; auto. intros k Hk. destruct (H7 k Hk) as [_ ->]. cbn [act_d]. cbn [nexp Num_R]. f_equal.
  set (v := nth k (data x) 0%R). destruct (Rlt_dec v (-15)); [|destruct (Rlt_dec 15 v)].
  - rewrite clamp_below by auto. rewrite Rmin_right by lra. now rewrite Rmax_left by lra.
  - rewrite clamp_above by auto. rewrite Rmin_left by lra. now rewrite Rmax_right by lra.
  - rewrite clamp_in by lra. rewrite Rmin_right by lra. now rewrite Rmax_right by lra.
Qed.
Lemma softplus_beyond beta thr b s (x : TR) : (0 < beta)%R -> 0 < b -> wf x -> shape x = b :: s ->
  exists D, act_jacobian (Softplus beta thr) x None Input true = Ok (Some D) /\
    forall k, k < numel (b :: s) -> (thr < beta * nth k (data x) 0)%R ->
      derivable_pt_lim (act_spec (Softplus beta thr)) (nth k (data x) 0%R) 1%R /\
      (1 - exp (- thr) <= nth k (data D) 0 < 1)%R.
Proof.
  intros Pb Hb Wx Sx. destruct (act_entries (Softplus beta thr) b s x Hb Wx Sx) as (y & D & H1 & H2 & H3 & H4 & H5 & H6 & H7).
  exists D. split; auto. intros k Hk L. destruct (H7 k Hk) as [_ ->]. set (v := nth k (data x) 0%R) in *. split.
  - destruct (dl_lt (fun _ => thr) (fun t => beta * t)%R v 0%R (beta * 1)%R) as (d & Pd & Hd); auto.
    + apply dl_const.
    + apply dl_scal, dl_id.
    + apply (dl_local (fun t => t) _ v _ d Pd); [|apply dl_id]. intros h Hh. specialize (Hd h Hh). cbn [act_spec].
      destruct Rlt_dec; [reflexivity|]. contradiction.
  - cbn [act_d]. unfold sigmoid. cbn [nmul ndiv nln nexp nopp n1 nadd Num_R].
    pose proof (exp_pos (- (beta * v))) as P.
    assert (E : (1 / (1 + exp (- (beta * v))) = 1 - exp (- (beta * v)) / (1 + exp (- (beta * v))))%R) by (field; lra).
    assert (M : (exp (- (beta * v)) < exp (- thr))%R) by (apply exp_increasing; lra).
    assert (Q : (0 < exp (- (beta * v)) / (1 + exp (- (beta * v))))%R) by (apply Rdiv_lt_0_compat; lra).
    assert (Q2 : (exp (- (beta * v)) / (1 + exp (- (beta * v))) <= exp (- (beta * v)))%R).
    { set (e := exp (- (beta * v))) in *. assert (I : (/ (1 + e) <= 1)%R) by (rewrite <- Rinv_1; apply Rinv_le_contravar; lra).
      unfold Rdiv. rewrite <- (Rmult_1_r e) at 3. apply Rmult_le_compat_l; lra. }
    rewrite E. lra.
Qed.

(** L2Norm with eps <> 0: at x = 1 with eps = 1 the jacobian returns 3/8, the derivative is 1/4 *)
Lemma l2_entry (t : R) : (0 < t)%R -> l2_forward 1%R (mkT [1; 1] [t]) = Ok (mkT [1; 1] [(t / (t + 1))%R]).
Proof.
  intros Pt. destruct (l2_fwd 1%R 1 [1] (mkT [1; 1] [t]) ltac:(lia) eq_refl) as (y & Fy & Wy & Sy & E).
  rewrite Fy. f_equal. destruct y as [sy dy]. cbn in Sy. subst sy. unfold wf in Wy. cbn in Wy. destruct dy as [|v [|]]; try discriminate.
  specialize (E 0 0 ltac:(lia) ltac:(unfold numel; cbn; lia)). unfold fl in E. cbn [data nth numel fold_right Nat.mul Nat.add] in E. cbn [n0 Num_R nth] in E. rewrite E.
  unfold l2_norm, fl. change (numel [1]) with 1. cbn [bsum data nth numel fold_right Nat.mul Nat.add nadd n0 Num_R nmul nsqrt ndiv n1].
  rewrite Rplus_0_l.   rewrite sqrt_square by lra. do 2 f_equal. field. lra.
Qed.
Lemma l2_refuted : exists (eps : R) (x : TR) h, (0 < eps)%R /\ wf x /\ shape x = [1; 1] /\ nth 0 (data x) 0%R <> 0%R /\
  exists J, snd (jacobian (Leaf (L2Norm eps)) h x None Input) = Ok (Some J) /\ ~ derivative_at (fwd (Leaf (L2Norm eps))) x [1] J.
Proof.
  exists 1%R, (mkT [1; 1] [1%R]), st0. split; [lra|]. split; [reflexivity|]. split; [reflexivity|]. split; [cbn; lra|].
  exists (dense 1 1 1 (l2_JX 1%R 1 (mkT [1; 1] [1%R]))). split.
  { change (snd (jacobian (Leaf (L2Norm 1%R)) st0 (mkT [1; 1] [1%R]) None Input)) with (l2_jacobian 1%R (mkT [1; 1] [1%R]) None Input).
    rewrite (l2_jac 1%R 1 [1] (mkT [1; 1] [1%R]) ltac:(lia) eq_refl None _ (l2_entry 1%R ltac:(lra))) by auto. reflexivity. }
  intros D. destruct (D (fun t => mkT [1; 1] [t]) 1%R (mkT [1; 1] [1%R]) eq_refl) as (y & F & My).
  { split; [reflexivity|]. split; [intros; split; reflexivity|]. intros k Hk. unfold numel in Hk; cbn in Hk; assert (k = 0) by lia. subst k. cbn [data nth].
    apply dl_id. }
  destruct My as (_ & _ & My). specialize (My 0). cbn [jac_apply shape] in My.
  assert (E : (0 < numel [1; 1])%nat) by (unfold numel; cbn; lia). specialize (My E).
  assert (V : nth 0 (data (jac_apply [1] (dense 1 1 1 (l2_JX 1%R 1 (mkT [1; 1] [1%R]))) (mkT [1; 1] [1%R]))) 0%R = (3 / 8)%R).
  { destruct (jac_apply_ok 1 1 1 [1] (dense 1 1 1 (l2_JX 1%R 1 (mkT [1; 1] [1%R]))) (mkT [1; 1] [1%R]) (wf_tab _ _) eq_refl eq_refl) as (_ & _ & A).
    specialize (A 0 0 ltac:(lia) ltac:(lia)). unfold fl at 1 in A. cbn [Nat.mul Nat.add] in A. cbn [n0 Num_R] in A. rewrite A. cbn [bsum]. rewrite Trees.entry_dense by lia.
    unfold l2_JX, l2_norm, fl. cbn [bsum data nth Nat.mul Nat.add nadd nsub n0 Num_R nmul nsqrt ndiv n1]. unfold delta. cbn [Nat.eqb n1 Num_R].
    rewrite !Rplus_0_l. rewrite sqrt_square by lra. field. }
  rewrite V in My.
  assert (D2 : derivable_pt_lim (fun t => nth 0 (data (y t)) 0%R) 1%R (1 / 4)%R).
  { apply (dl_local (fun t => t * (1 / (t + 1)))%R _ 1%R _ 1%R); [lra| |].
    - intros k Hk. apply Rabs_def2 in Hk. specialize (F (1 + k)%R). unfold fwd in F. cbn [forward snd leaf_forward] in F.
      rewrite l2_entry in F by lra. injection F as <-. cbn [data nth]. field. lra.
    - eapply dl_eq; [refine (dl_mult (fun t => t) _ 1%R _ _ (dl_id _) (dl_inv (fun t => t + 1)%R 1%R _ (dl_plus _ _ _ _ _ (dl_id _) (dl_const _ _)) _)); lra|].
      cbn beta. field. }
  pose proof (uniqueness_limite _ _ _ _ My D2). lra.
Qed.
Lemma l2_exact s b (x : TR) h : 0 < numel s -> 0 < b -> wf x -> shape x = b :: s ->
  (forall q, q < b -> exists j, j < numel s /\ nth (q * numel s + j) (data x) 0%R <> 0%R) ->
  exists J, snd (jacobian (Leaf (L2Norm 0%R)) h x None Input) = Ok (Some J) /\ wf J /\ shape J = [b; numel s; numel s] /\
    derivative_at (fwd (Leaf (L2Norm 0%R))) x s J.
Proof.
  intros P Hb Wx Sx Nz. apply (input_derivative (Leaf (L2Norm 0%R)) s s b x); auto.
  - apply ty_leaf. repeat split; auto.
  - cbn [smooth leaf_smooth]. split; auto. unfold dim. rewrite Sx. exact Nz.
Qed.
