(** What it means for an aggregated metric to be symmetric and negative semidefinite. *)
From Coq Require Import List Arith Reals.
From Verif Require Import Scalar Sums Tensor.
Import ListNotations.
(** td: G is a vector of n nonpositive numbers; otherwise G is a symmetric (n, n) matrix with v^T G v <= 0 for every v *)
Definition negative (td : bool) (n : nat) (G : tensor R) : Prop :=
  if td then shape G = [n] /\ forall i, i < n -> (nth i (data G) 0 <= 0)%R
  else shape G = [n; n] /\ (forall i j, i < n -> j < n -> get 0%R G [i; j] = get 0%R G [j; i]) /\
       forall v : nat -> R, (bsum n (fun i => bsum n (fun j => v i * get 0 G [i; j] * v j)) <= 0)%R.
