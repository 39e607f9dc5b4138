(** C10, C11, C26-C28: the matrices that jacobian returns are derivatives. [h] is an arbitrary hidden state. *)
From Coq Require Import List Arith Lia Bool Reals Lra.
From Verif Require Import Scalar Tensor Abstract Simple Module Spec Domain Smooth Deriv Acts Calc L2Exact Examples ExamplesR.
Import ListNotations.
Local Open Scope nat_scope.
Local Open Scope list_scope.

Theorem C10_input_derivative :
  forall (m : module R) (s s' : list nat) (b : nat) (x : tensor R) (h : st R),
  typed m s s' -> 0 < b -> wf x -> shape x = b :: s -> smooth m x ->
  exists J, snd (jacobian m h x None Input) = Ok (Some J) /\ wf J /\ shape J = [b; numel s'; numel s] /\
    derivative_at (fwd m) x s' J.
Proof. exact (fun m s s' b x h T B W S => input_derivative m s s' b x T B W S h). Qed.
Print Assumptions C10_input_derivative.
Example C10_case : typed netR [2] [2] /\ wf xR /\ shape xR = 2 :: [2] /\ smooth netR xR.
Proof. split; [exact netR_typed|]. split; [reflexivity|]. split; [reflexivity|]. exact netR_smooth. Qed.
Example C10_case_pool : typed netQ [4] [1] /\ wf xQ /\ shape xQ = 1 :: [4] /\ smooth netQ xQ.
Proof. split; [exact netQ_typed|]. split; [reflexivity|]. split; [reflexivity|]. exact netQ_smooth. Qed.

(** column p of the weight Jacobian belongs to entry p of get_weight(), for every curve of parameter vectors *)
Theorem C11_weight_derivative :
  forall (m : module R) (s s' : list nat) (b : nat) (x w0 : tensor R) (h : st R),
  typed m s s' -> 0 < b -> wf x -> shape x = b :: s -> smooth m x -> get_weight m = Ok w0 ->
  exists J, snd (jacobian m h x None Weight) = Ok (Some J) /\ wf J /\ shape J = [b; numel s'; n_params m] /\
    forall w t0 dw, w t0 = w0 -> moves w t0 dw ->
    exists y v, (forall t, exists m', set_weight m (w t) = (m', Ok tt) /\ fwd m' x = Ok (y t)) /\
      moves y t0 v /\ shape v = b :: s' /\
      forall q i, q < b -> i < numel s' -> nth (q * numel s' + i) (data v) 0%R =
        bsum (n_params m) (fun p => entry J q i p * nth p (data dw) 0)%R.
Proof. exact (fun m s s' b x w0 h T B W S => weight_derivative m s s' b x T B W S h w0). Qed.
Print Assumptions C11_weight_derivative.
(** inputs and parameters moving at the same time *)
Theorem C11_joint_derivative :
  forall (m : module R) (s s' : list nat) (b : nat) (x w0 : tensor R) (h h' : st R),
  typed m s s' -> 0 < b -> wf x -> shape x = b :: s -> smooth m x -> get_weight m = Ok w0 ->
  exists Jx Jw, snd (jacobian m h x None Input) = Ok (Some Jx) /\ snd (jacobian m h' x None Weight) = Ok (Some Jw) /\
    wf Jw /\ shape Jw = [b; numel s'; n_params m] /\
    forall c w t0 dx dw, c t0 = x -> moves c t0 dx -> w t0 = w0 -> moves w t0 dw ->
    exists y v, (forall t, exists m', set_weight m (w t) = (m', Ok tt) /\ fwd m' (c t) = Ok (y t)) /\
      moves y t0 v /\ shape v = b :: s' /\
      forall q i, q < b -> i < numel s' -> nth (q * numel s' + i) (data v) 0%R =
        (bsum (numel s) (fun j => entry Jx q i j * nth (q * numel s + j) (data dx) 0) +
         bsum (n_params m) (fun p => entry Jw q i p * nth p (data dw) 0))%R.
Proof. exact (fun m s s' b x w0 h h' T B W S => joint_derivative m s s' b x T B W S h h' w0). Qed.
Print Assumptions C11_joint_derivative.
Example C11_case : typed netR [2] [2] /\ smooth netR xR /\ n_params netR = 9 /\
  get_weight netR = Ok (tr [9] [2; 1; 3; 1; 0; 2; (-1); 1; 1]%R).
Proof. split; [exact netR_typed|]. split; [exact netR_smooth|]. split; reflexivity. Qed.
Example C11_case_curve : exists w dw, w 0%R = tr [2] [1; 2]%R /\ moves w 0 dw /\ nth 0 (data dw) 0%R = 3%R.
Proof.
  exists (fun t => tr [2] [(1 + 3 * t)%R; 2]%R), (tr [2] [3; 0]%R). split; [unfold tr; repeat f_equal; ring|]. split; [|reflexivity].
  split; [reflexivity|]. split; [intros; split; reflexivity|]. intros k Hk. unfold numel in Hk. cbn in Hk. destruct k as [|[|]]; [| |lia]; cbn [data tr nth].
  - eapply dl_eq; [apply dl_plus; [apply dl_const|apply (dl_scal 3 (fun t => t)), dl_id]|ring].
  - apply dl_const.
Qed.

(** every activation's forward and diagonal, entry by entry *)
Theorem C26_activations :
  forall (a : act R) (b : nat) (s : list nat) (x : tensor R),
  0 < b -> wf x -> shape x = b :: s ->
  exists y D, act_forward a x = Ok y /\ act_jacobian a x None Input true = Ok (Some D) /\
    wf y /\ shape y = b :: s /\ wf D /\ shape D = [b; numel s] /\
    forall k, k < numel (b :: s) ->
      nth k (data y) 0%R = act_spec a (nth k (data x) 0%R) /\
      (act_smooth a (nth k (data x) 0%R) -> derivable_pt_lim (act_spec a) (nth k (data x) 0%R) (nth k (data D) 0%R)).
Proof. exact act_derivative. Qed.
Print Assumptions C26_activations.
Theorem C26_relu_at_zero :
  forall (b : nat) (s : list nat) (x : tensor R), 0 < b -> wf x -> shape x = b :: s ->
  exists D, act_jacobian ReLU x None Input true = Ok (Some D) /\
    forall k, k < numel (b :: s) -> nth k (data x) 0%R = 0%R -> nth k (data D) 0%R = 0%R.
Proof. exact relu_at_zero. Qed.
Print Assumptions C26_relu_at_zero.
Theorem C26_truncexp :
  forall (b : nat) (s : list nat) (x : tensor R), 0 < b -> wf x -> shape x = b :: s ->
  exists D, act_jacobian TruncExp x None Input true = Ok (Some D) /\
    forall k, k < numel (b :: s) -> nth k (data D) 0%R = exp (Rmax (-15) (Rmin 15 (nth k (data x) 0%R))).
Proof. exact truncexp_clamped. Qed.
Print Assumptions C26_truncexp.
Example C26_case : wf xR /\ shape xR = 2 :: [2] /\ act_smooth ReLU (nth 1 (data xR) 0%R) /\ act_smooth TruncExp (nth 2 (data xR) 0%R).
Proof. repeat split; cbn; lra. Qed.

(** eps = 0 is covered by C10; with eps <> 0 the returned matrix need not be the derivative *)
Theorem C27_l2norm_partial :
  forall (s : list nat) (b : nat) (x : tensor R) (h : st R),
  0 < numel s -> 0 < b -> wf x -> shape x = b :: s ->
  (forall q, q < b -> exists j, j < numel s /\ nth (q * numel s + j) (data x) 0%R <> 0%R) ->
  exists J, snd (jacobian (Leaf (L2Norm 0%R)) h x None Input) = Ok (Some J) /\ wf J /\ shape J = [b; numel s; numel s] /\
    derivative_at (fwd (Leaf (L2Norm 0%R))) x s J.
Proof. exact l2_exact. Qed.
Print Assumptions C27_l2norm_partial.
Theorem C27_l2norm_refuted : exists (eps : R) (x : tensor R) h, (0 < eps)%R /\ wf x /\ shape x = [1; 1] /\ nth 0 (data x) 0%R <> 0%R /\
  exists J, snd (jacobian (Leaf (L2Norm eps)) h x None Input) = Ok (Some J) /\ ~ derivative_at (fwd (Leaf (L2Norm eps))) x [1] J.
Proof. exact l2_refuted. Qed.
Print Assumptions C27_l2norm_refuted.
(** eps > 0, every input: the derivative of forward exists, the returned matrix differs from it by eps x_i x_j / (|x| (|x| + eps)^3),
    and is the derivative only at x = 0 *)
Theorem C27_error :
  forall (e : R) (s : list nat) (b : nat) (x : tensor R) (h : st R),
  (0 < e)%R -> 0 < b -> wf x -> shape x = b :: s ->
  let n := numel s in
  exists J D, snd (jacobian (Leaf (L2Norm e)) h x None Input) = Ok (Some J) /\ wf J /\ shape J = [b; n; n] /\
    wf D /\ shape D = [b; n; n] /\ derivative_at (fwd (Leaf (L2Norm e))) x s D /\
    (forall q i j, q < b -> i < n -> j < n ->
       (entry J q i j - entry D q i j = e * (nth (q * n + i) (data x) 0 * nth (q * n + j) (data x) 0) / (len n x q * (len n x q + e) ^ 3))%R) /\
    (derivative_at (fwd (Leaf (L2Norm e))) x s J <-> forall k, k < numel (b :: s) -> nth k (data x) 0%R = 0%R).
Proof. exact (fun e s b x h He Hb Wx Sx => l2_eps e s b x He Hb Wx Sx h). Qed.
Print Assumptions C27_error.
Example C27_case : forall q, q < 2 -> exists j, j < numel [2] /\ nth (q * numel [2] + j) (data xR) 0%R <> 0%R.
Proof. intros q Hq. exists 0. split; [vm_compute; auto|]. destruct q as [|[|]]; [| |lia]; [change (1 <> 0)%R|change (3 <> 0)%R]; lra. Qed.

Theorem C28_softplus :
  forall (beta thr : R) (b : nat) (s : list nat) (x : tensor R), (0 < beta)%R -> 0 < b -> wf x -> shape x = b :: s ->
  exists D, act_jacobian (Softplus beta thr) x None Input true = Ok (Some D) /\
    forall k, k < numel (b :: s) -> (thr < beta * nth k (data x) 0)%R ->
      derivable_pt_lim (act_spec (Softplus beta thr)) (nth k (data x) 0%R) 1%R /\
      (1 - exp (- thr) <= nth k (data D) 0 < 1)%R.
Proof. exact softplus_beyond. Qed.
Print Assumptions C28_softplus.
Example C28_case : let x := tr [1; 1] [30]%R in (0 < 1)%R /\ wf x /\ shape x = 1 :: [1] /\ (20 < 1 * nth 0 (data x) 0)%R.
Proof. cbv zeta. repeat split; cbn; lra. Qed.
