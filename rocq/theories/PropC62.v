(** C62: the benchmark benchmarks/ggn/nnj.py. C63: the gradient of the README's example. *)
From Coq Require Import List Arith Reals.
From Verif Require Import Scalar Sums Tensor Conv Abstract Simple Module LogLik Utils UtilSpec Domain Smooth LikSpec Bench BenchProofs.
Import ListNotations.
Local Open Scope nat_scope.
Local Open Scope list_scope.

(** GGN(model).ggn(X, y), for every torch Sequential of layers that the conversion carries over (C41), is the average over the
    batch of the squared derivatives of the torch model's outputs with respect to its parameters, in the order of
    model.parameters() *)
Theorem C62_ggn : forall (ls : list (tlayer R)) (s s' : list nat) (b : nat) (x : tensor R),
  Forall plain ls -> t_fits_seq ls s s' -> 0 < b -> wf x -> shape x = b :: s -> numel (shape (t_weight ls)) <> 0 -> t_smooth_seq ls x ->
  exists m J d, bench_init ls = Ok m /\ t_derivative ls x b s' J /\ (forall h, snd (bench_ggn m h x) = Ok d) /\
    wf d /\ shape d = shape (t_weight ls) /\
    forall k, k < numel (shape (t_weight ls)) ->
      nth k (data d) 0%R = (bsum b (fun q => bsum (numel s') (fun i => J q i k * J q i k)) / INR b)%R.
Proof. exact bench_value. Qed.
Print Assumptions C62_ggn.
(** in particular for benchmarks/models.py, with any widths, depth, weights and inputs *)
Theorem C62_linear_model : forall (Ps : list (tensor R * tensor R)) (s s' : list nat) (b : nat) (x : tensor R), let ls := linear_model Ps in
  t_fits_seq ls s s' -> 0 < b -> wf x -> shape x = b :: s -> numel (shape (t_weight ls)) <> 0 ->
  exists m J d, bench_init ls = Ok m /\ t_derivative ls x b s' J /\ (forall h, snd (bench_ggn m h x) = Ok d) /\
    wf d /\ shape d = shape (t_weight ls) /\
    forall k, k < numel (shape (t_weight ls)) ->
      nth k (data d) 0%R = (bsum b (fun q => bsum (numel s') (fun i => J q i k * J q i k)) / INR b)%R.
Proof. exact (fun Ps s s' b x F Hb Wx Sx Np => bench_value (linear_model Ps) s s' b x (linear_plain Ps) F Hb Wx Sx Np (linear_smooth Ps x)). Qed.
Print Assumptions C62_linear_model.
(** the network of the benchmark (n = 100, k = 3) is one of them *)
Example C62_case : forall n k (W c : tensor R), 0 < n -> 0 < k -> shape W = [n; n] -> wf W -> shape c = [n] -> wf c ->
  t_fits_seq (linear_model (repeat (W, c) k)) [n] [n] /\ numel (shape (t_weight (linear_model (repeat (W, c) k)))) <> 0 /\ Forall plain (linear_model (repeat (W, c) k)).
Proof. exact (fun n k W c Hn Hk SW WW Sc Wc => conj (linear_fits n k W c Hn SW WW Sc Wc) (conj (linear_weight n k W c Hn Hk SW WW) (linear_plain _))). Qed.
(** a curve of networks: one weight of a Linear(1, 1) - Tanh network moves *)
Example C62_curve : let lc := fun t : R => linear_model [(mkT [1; 1] [t], mkT [1] [0%R])] in
  (forall t, Forall2 t_alike (lc 0%R) (lc t)) /\ moves (fun t => t_weight (lc t)) 0%R (mkT [2] [1%R; 0%R]).
Proof.
  cbn. split.
  - intros t. constructor; [|constructor; [reflexivity|constructor]]. repeat split; auto. intros u E. injection E as <-. reflexivity.
  - split; [reflexivity|]. split; [intros t; split; reflexivity|]. intros [|[|k]] Hk; cbn.
    + apply derivable_pt_lim_id.
    + apply derivable_pt_lim_const.
    + exfalso. cbn in Hk. do 2 apply Nat.succ_lt_mono in Hk. inversion Hk.
Qed.

(** the gradient of README.md:37-54 is the gradient, in the coordinates of get_weight, of the batch average of half the squared
    distances between the outputs and the targets: along every differentiable curve of weight vectors passed to set_weight *)
Theorem C63_gradient : forall (m : module R) (s : list nat) (n b : nat) (x tg w0 : tensor R) (h : st R),
  typed m s [n] -> 0 < b -> wf x -> shape x = b :: s -> smooth m x -> get_weight m = Ok w0 -> wf tg -> shape tg = [b; n] ->
  exists g, snd (readme_gradient m h x tg) = Ok g /\ wf g /\ shape g = [n_params m] /\
    forall w t0 dw, w t0 = w0 -> moves w t0 dw ->
    exists F Y, (forall t, exists m', set_weight m (w t) = (m', Ok tt) /\ fwd m' x = Ok (Y t)) /\
      (forall t, F t = bsum b (fun q => bsum n (fun i => (sample n (Y t) q i - sample n tg q i)^2)) / (2 * INR b))%R /\
      derivable_pt_lim F t0 (bsum (n_params m) (fun p => nth p (data g) 0 * nth p (data dw) 0))%R.
Proof. exact readme_value. Qed.
Print Assumptions C63_gradient.
(** the network of the README, with any weights, any widths and any inputs *)
Example C63_case : forall a1 a2 a3 (W c W' c' x : tensor R), 0 < a1 -> 0 < a2 -> 0 < a3 ->
  shape W = [a2; a1] -> wf W -> shape c = [a2] -> wf c -> shape W' = [a3; a2] -> wf W' -> shape c' = [a3] -> wf c' ->
  let m := Seq true [Leaf (Linear W (Some c)); Leaf (Act Tanh); Leaf (Linear W' (Some c'))] in
  typed m [a1] [a3] /\ smooth m x /\ exists w0, get_weight m = Ok w0.
Proof. exact readme_network. Qed.
