(** Specification vocabulary for linear combinations, symmetry and positive semidefiniteness. *)
From Coq Require Import List Arith Bool Reals.
From Verif Require Import Scalar Sums Tensor Module Spec.
Import ListNotations.
Local Open Scope nat_scope.

Section SpecQ.
  Context {K} `{Num K}.
  Notation gt := (get (@n0 K _)).
  Notation T := (tensor K).
  (** a u + c v, entry by entry (u and v of the same shape) *)
  Definition lin (a c : K) (u v : T) : T := tab (shape u) (fun idx => nadd (nmul a (gt u idx)) (nmul c (gt v idx))).
  Definition olin (a c : K) (u v : option T) : option T :=
    match u, v with Some u, Some v => Some (lin a c u v) | _, _ => None end.
  (** the same on the (nested) lists that jTmjp returns *)
  Fixpoint vlin (a c : K) (u v : value K) {struct u} : value K :=
    match u, v with
    | VT u, VT v => VT (lin a c u v)
    | VL l, VL l' => VL ((fix go l l' := match l, l' with
                                         | x :: l, x' :: l' => vlin a c x x' :: go l l'
                                         | _, _ => []
                                         end) l l')
    | _, _ => VNone
    end.
  (** sample q of the batch of (n, n) matrices R is symmetric *)
  Definition sym_at (n : nat) (R : nat -> nat -> nat -> K) (q : nat) : Prop :=
    forall i k, i < n -> k < n -> R q i k = R q k i.
  (** a batch of b symmetric (n, n) matrices *)
  Definition square_sym (b n : nat) (t : T) : Prop := shape t = [b; n; n] /\ forall q, q < b -> sym_at n (entry t) q.
  (** v^T R v for sample q *)
  Definition quad (n : nat) (R : nat -> nat -> nat -> K) (q : nat) (v : nat -> K) : K :=
    bsum n (fun i => bsum n (fun k => nmul (nmul (v i) (R q i k)) (v k))).
  (** the tensors of a nested list, in order *)
  Fixpoint flat (v : value K) : list T :=
    match v with
    | VNone => []
    | VT t => [t]
    | VL l => (fix go l := match l with [] => [] | v :: l => flat v ++ go l end) l
    end.
  (** P holds for every tensor of a nested list *)
  Fixpoint all_blocks (P : T -> Prop) (v : value K) : Prop :=
    match v with
    | VNone => True
    | VT t => P t
    | VL l => (fix go l := match l with [] => True | v :: l => all_blocks P v /\ go l end) l
    end.
  (** the identity metric for b samples of size n, as a diagonal or as full matrices *)
  Definition identity_metric (fd : bool) (b n : nat) : T :=
    if fd then tab2 b n (fun _ _ => n1) else tab3 b n n (fun _ i j => if Nat.eqb i j then n1 else n0).
End SpecQ.
Definition psd_at (n : nat) (R : nat -> nat -> nat -> R) (q : nat) : Prop := forall v, (0 <= quad n R q v)%R.
(** a batch of b symmetric positive semidefinite (n, n) matrices; a batch of b nonnegative diagonals *)
Definition square_psd (b n : nat) (t : tensor R) : Prop :=
  shape t = [b; n; n] /\ forall q, q < b -> sym_at n (entry t) q /\ psd_at n (entry t) q.
Definition nonneg (b n : nat) (t : tensor R) : Prop := shape t = [b; n] /\ forall q j, q < b -> j < n -> (0 <= get 0 t [q; j])%R.
Definition psd_shaped (td : bool) (b n : nat) (t : tensor R) : Prop := if td then nonneg b n t else square_psd b n t.
