(** C58: the worked example of UNet.ipynb.  Training step, Laplace approximation and sampling, for every network and for the U-Net. *)
From Coq Require Import List Arith NArith Reals.
From Verif Require Import Scalar Sums Tensor Conv Simple Module LogLik Utils Spec Domain Smooth LikSpec DiagSpec Params Notebook NotebookProofs UNetProofs UNetWitness ExamplesR.
Import ListNotations.
Local Open Scope nat_scope.
Local Open Scope list_scope.

(** the training step adds to get_weight() the gradient of minus half the squared error *)
Theorem C58_training_step : forall (m : module R) (s s' : list nat) (b : nat) (x tg w0 : tensor R) h,
  typed m s s' -> 0 < b -> wf x -> shape x = b :: s -> smooth m x -> get_weight m = Ok w0 -> wf tg -> shape tg = b :: s' ->
  exists m' w1, fst (fst (train_step m h x tg)) = m' /\ snd (train_step m h x tg) = Ok tt /\ arch m m' /\ get_weight m' = Ok w1 /\
    forall w t0 dw, w t0 = w0 -> moves w t0 dw ->
    exists F Y, (forall t, exists m'', set_weight m (w t) = (m'', Ok tt) /\ fwd m'' x = Ok (Y t)) /\
      (forall t, F t = bsum b (fun q => bsum (numel s') (fun i => - (1 / 2) * (sample (numel s') (Y t) q i - sample (numel s') tg q i)^2)))%R /\
      derivable_pt_lim F t0 (bsum (n_params m) (fun p => (nth p (data w1) 0 - nth p (data w0) 0) * nth p (data dw) 0))%R.
Proof. exact step_gradient. Qed.
Print Assumptions C58_training_step.

(** the precision is 1 plus the layer-by-layer diagonal approximation summed over the batch; the standard deviations are well defined *)
Theorem C58_laplace : forall hooks ms (s s' : list nat) (b : nat) (x : tensor R) h, let m := Seq hooks ms in
  typed m s s' -> all_sym m -> 0 < b -> wf x -> shape x = b :: s -> n_params m <> 0 ->
  exists p sd, snd (laplace m h x) = Ok (p, sd) /\ wf p /\ shape p = [n_params m] /\ wf sd /\ shape sd = [n_params m] /\
    forall k, k < n_params m ->
      nth k (data p) 0%R = (1 + bsum b (fun q => dpullw m x (fun _ _ => 1) q k))%R /\ (1 <= nth k (data p) 0)%R /\
      (0 < nth k (data sd) 0 <= 1)%R /\ (nth k (data sd) 0 * nth k (data sd) 0 * nth k (data p) 0 = 1)%R.
Proof. exact laplace_value. Qed.
Print Assumptions C58_laplace.

(** the U-Net maps images whose sides are multiples of 16 to images of the same size, for every number of channels c,
    and has the number of parameters printed in the notebook (c = 64) *)
Theorem C58_unet : forall (K : Type) (N : Num K) c (P : nat -> tensor K * tensor K) a d,
  0 < c -> 0 < a -> 0 < d -> unet_sized c P ->
  typed (unet P) [1; 16 * a; 16 * d] [1; 16 * a; 16 * d] /\ all_sym (unet P) /\
  N.of_nat (n_params (unet P)) = (5364 * (N.of_nat c * N.of_nat c) + 87 * N.of_nat c + 1)%N.
Proof. exact (fun K N c P a d Hc Ha Hd Sz => conj (unet_typed c P Hc Sz a d Ha Hd) (conj (unet_sym P) (unet_count c P Hc Sz))). Qed.
Print Assumptions C58_unet.
Example C58_printed : (5364 * (64 * 64) + 87 * 64 + 1)%N = 21976513%N.
Proof. reflexivity. Qed.
(** parameters and images that meet all the hypotheses above, for every size *)
Example C58_case : forall b c a d, 0 < b -> 0 < c -> 0 < a -> 0 < d ->
  unet_sized c (copy_params c) /\ wf (ramp b (16 * a) (16 * d)) /\ shape (ramp b (16 * a) (16 * d)) = b :: [1; 16 * a; 16 * d] /\
  smooth (unet (copy_params c)) (ramp b (16 * a) (16 * d)) /\ n_params (unet (copy_params c)) <> 0 /\ exists w0, get_weight (unet (copy_params c)) = Ok w0.
Proof. exact unet_case. Qed.

(** the sampled weights of the last section are std * eps: the trained weights do not enter *)
Theorem C58_sampled_weight : forall (m : module R) (std eps x : tensor R) h, sized m -> params m <> [] ->
  wf std -> shape std = [n_params m] -> wf eps -> shape eps = [n_params m] ->
  exists w, get_weight (fst (fst (sample_prediction m h std eps x))) = Ok w /\
    forall k, k < n_params m -> nth k (data w) 0%R = (nth k (data std) 0 * nth k (data eps) 0)%R.
Proof. exact sampled_weight. Qed.
Print Assumptions C58_sampled_weight.
(** so the samples are not drawn around the mode: with eps = 0 they should give back the weights *)
Theorem C58_refuted_mean : exists (m : module R) (std x : tensor R) h w0 w1,
  sized m /\ get_weight m = Ok w0 /\ wf std /\ shape std = [n_params m] /\
  get_weight (fst (fst (sample_prediction m h std (zeros [n_params m]) x))) = Ok w1 /\ w1 <> w0.
Proof. exact not_the_mean. Qed.
Print Assumptions C58_refuted_mean.
