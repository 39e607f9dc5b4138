(** Specification vocabulary for forward: what the layers compute, written without the tensor operations of the model. *)
From Coq Require Import List Arith ZArith Bool Reals.
From Verif Require Import Scalar Sums Tensor.
Import ListNotations.

(** row [r] of an axis of length [n] belongs to pooling window [o] (kernel k, stride s, padding p, dilation d) *)
Definition in_window (n k s p d o r : nat) : Prop := r < n /\ exists u, u < k /\ r + p = o * s + u * d.

Section FwdSpec.
  Context {K} `{Num K}.
  (** pixel (y, x) of channel c of image q, zero outside the h x w image *)
  Definition pixel (t : tensor K) (h w q c : nat) (y x : Z) : K :=
    if ((0 <=? y) && (y <? Z.of_nat h) && (0 <=? x) && (x <? Z.of_nat w))%Z%bool
    then get n0 t [q; c; Z.to_nat y; Z.to_nat x] else n0.
  (** the bias of output i, if there is one *)
  Definition bias_at (bias : option (tensor K)) (i : nat) : K := match bias with Some t => get n0 t [i] | None => n0 end.
End FwdSpec.
