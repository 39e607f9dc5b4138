(** Specification vocabulary for the likelihoods: the log densities as real functions of one sample's
    outputs, their gradients and Hessians.  Nothing here refers to the model of the likelihood code. *)
From Coq Require Import List Arith Lia Bool Reals.
From Verif Require Import Scalar Tensor LogLik.
Import ListNotations.
Local Open Scope nat_scope.
Local Open Scope list_scope.

(** the entries of sample q of a batch of samples with n entries each *)
Definition sample (n : nat) (t : tensor R) (q i : nat) : R := nth (q * n + i) (data t) 0%R.

(** log density of the target t at the outputs y (n entries; c entries per group of classes), up to the
    constant that does not depend on y:
    Gaussian with unit variance; independent Bernoulli variables with logits y; one categorical variable
    per group of c consecutive entries with logits y *)
Definition log_density (k : lik) (c n : nat) (t y : nat -> R) : R :=
  (match k with
   | LogGaussian => bsum n (fun i => - (1 / 2) * (y i - t i)^2)
   | LogBinaryBernoulli =>
       let p i := / (1 + exp (- y i)) in bsum n (fun i => t i * ln (p i) + (1 - t i) * ln (1 - p i))
   | LogBernoulli =>
       let p i := exp (y i) / bsum c (fun j => exp (y (i / c * c + j)%nat)) in bsum n (fun i => t i * ln (p i))
   end)%R.

(** targets of the categorical likelihood: one-hot rows or class probabilities *)
Definition proper (k : lik) (c n : nat) (t : nat -> R) : Prop :=
  match k with
  | LogBernoulli => forall g, g * c < n -> bsum c (fun j => t (g * c + j)) = 1%R
  | _ => True
  end.

(** the curve Y of n-vectors passes y at time t0 with velocity v *)
Definition passes (n : nat) (Y : R -> nat -> R) (t0 : R) (y v : nat -> R) : Prop :=
  forall i, i < n -> Y t0 i = y i /\ derivable_pt_lim (fun t => Y t i) t0 (v i).
(** r is the gradient of f at y; H its matrix of second derivatives *)
Definition is_gradient (n : nat) (f : (nat -> R) -> R) (y r : nat -> R) : Prop :=
  forall Y t0 v, passes n Y t0 y v -> derivable_pt_lim (fun t => f (Y t)) t0 (bsum n (fun i => r i * v i))%R.
Definition is_hessian (n : nat) (f : (nat -> R) -> R) (y : nat -> R) (H : nat -> nat -> R) : Prop :=
  exists g : (nat -> R) -> nat -> R, (forall z, is_gradient n f z (g z)) /\
  forall i, i < n -> is_gradient n (fun z => g z i) y (H i).

(** aggregate_batch over the samples *)
Definition agg_value_of (a : agg) (b : nat) (f : nat -> R) : R :=
  match a with AggAverage => (bsum b f / INR b)%R | _ => bsum b f end.

(** G aggregates a batch of n x n matrices over the samples: only the diagonals (td), or the whole matrices *)
Definition aggregates (a : agg) (td : bool) (b n : nat) (Rm : nat -> nat -> nat -> R) (G : tensor R) : Prop :=
  wf G /\ shape G = (if td then [n] else [n; n]) /\
  forall i j, i < n -> j < n ->
    if td then nth i (data G) 0%R = agg_value_of a b (fun q => Rm q i i)
    else get 0%R G [i; j] = agg_value_of a b (fun q => Rm q i j).

(** the aggregation options under which a number is returned *)
Definition reduces (a : agg) : Prop := a = AggSum \/ a = AggAverage.

(** metric_shape "diag" *)
Definition only_diag (sh : mshape) : bool := match sh with MDiag => true | _ => false end.
