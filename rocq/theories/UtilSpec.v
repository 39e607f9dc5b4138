(** Specification vocabulary for nnj/utils.py. *)
From Coq Require Import List Arith Bool Reals.
From Verif Require Import Scalar Sums Tensor Conv Abstract Simple LinearLayer ConvLayer PoolLayer Module Utils.
Import ListNotations.
Local Open Scope nat_scope.
Local Open Scope list_scope.

(** square matrices: products and identity, entry by entry *)
Definition mat := nat -> nat -> R.
Definition mmul (n : nat) (A B : mat) : mat := fun i j => bsum n (fun k => A i k * B k j)%R.
Definition is_inverse (n : nat) (A X : mat) : Prop :=
  forall i j, i < n -> j < n ->
    mmul n A X i j = (if i =? j then 1 else 0)%R /\ mmul n X A i j = (if i =? j then 1 else 0)%R.
(** block [pre] of a (..., n, n) tensor; its lower triangle; C C^T *)
Definition block_of (t : tensor R) (pre : list nat) : mat := fun i j => get 0%R t (pre ++ [i; j]).
Definition tril (A : mat) : mat := fun i j => if j <=? i then A i j else 0%R.
Definition gram (n : nat) (C : mat) : mat := fun i j => bsum n (fun k => C i k * C j k)%R.

(** u holds, block by block and with the same nesting, matrices related to those of v *)
Inductive blockwise (P : nat -> mat -> mat -> Prop) : value R -> value R -> Prop :=
| bw_tensor pre n t u :
    shape t = pre ++ [n; n] -> shape u = pre ++ [n; n] -> wf u ->
    (forall p, valid pre p -> P n (block_of t p) (block_of u p)) -> blockwise P (VT t) (VT u)
| bw_list l l' : Forall2 (blockwise P) l l' -> blockwise P (VL l) (VL l').
(** a nested list of (..., n, n) tensors all of whose blocks satisfy Q *)
Inductive blocks (Q : nat -> mat -> Prop) : value R -> Prop :=
| bl_tensor pre n t : shape t = pre ++ [n; n] -> (forall p, valid pre p -> Q n (block_of t p)) -> blocks Q (VT t)
| bl_list l : Forall (blocks Q) l -> blocks Q (VL l).

Section Convert.
  Context {K} `{Num K}.
  (** the layers and configurations that convert_to_nnj carries over *)
  Definition plain (l : tlayer K) : Prop :=
    match l with
    | TLinear _ b => b <> None
    | TConv2d cfg _ b => b <> None /\ cstride cfg = (1, 1) /\ cpad cfg = (0, 0) /\ cdil cfg = (1, 1) /\ cgroups cfg = 1 /\ cmode cfg = PZeros
    | TMaxPool2d cfg => ps cfg = pk cfg /\ pp cfg = (0, 0) /\ pd cfg = (1, 1) /\ pceil cfg = false
    | TAct (Softplus beta thr) => beta = n1 /\ thr = nnat 20
    | TAct _ | TFlatten => True
    | TUpsample _ _ | TSequential _ | TOther _ => False
    end.
  (** the parameters of the torch model, in order *)
  Fixpoint t_params (l : tlayer K) : list (tensor K) :=
    match l with
    | TLinear W b | TConv2d _ W b => W :: match b with Some t => [t] | None => [] end
    | TSequential ls => flat_map t_params ls
    | _ => []
    end.
End Convert.
