(** Specification vocabulary: what it means to multiply by a batch of matrices.

    A batch of matrices is a function J : nat -> nat -> nat -> K (sample, row, column).  The products
    are given by their defining sums, entry by entry.  Nothing here refers to the model of the code. *)
From Coq Require Import List Arith Lia Bool.
From Verif Require Import Scalar Sums Tensor.
Import ListNotations.
Local Open Scope nat_scope.

Section Spec.
  Context {K} `{Num K}.
  Notation gt := (get (@n0 K _)).
  Notation T := (tensor K).
  Implicit Types J R : nat -> nat -> nat -> K.

  (** the batch of matrices held by a (b, m, n) tensor *)
  Definition entry (t : T) (q i j : nat) : K := gt t [q; i; j].
  (** the matrices themselves, as a (b, m, n) tensor *)
  Definition dense (b m n : nat) J : T := tab3 b m n J.
  (** v J for (b, m) rows v *)
  Definition vJ (b m n : nat) J (v : T) : T :=
    tab2 b n (fun q j => bsum m (fun i => nmul (gt v [q; i]) (J q i j))).
  (** M J for (b, r, m) stacks of rows *)
  Definition MJ (b r m n : nat) J (M : T) : T :=
    tab3 b r n (fun q a j => bsum m (fun i => nmul (gt M [q; a; i]) (J q i j))).
  (** J v for (b, n) columns v *)
  Definition Jv (b m n : nat) J (v : T) : T :=
    tab2 b m (fun q i => bsum n (fun j => nmul (J q i j) (gt v [q; j]))).
  (** J M for (b, n, c) stacks of columns *)
  Definition JM (b m n c : nat) J (M : T) : T :=
    tab3 b m c (fun q i a => bsum n (fun j => nmul (J q i j) (gt M [q; j; a]))).

  (** a metric argument: a (b, m, m) tensor, or a (b, m) tensor read as a diagonal *)
  Definition metric (fd : bool) (M : T) (q i k : nat) : K :=
    if fd then (if Nat.eqb i k then gt M [q; i] else n0) else gt M [q; i; k].
  Definition metric_shape (fd : bool) (b m : nat) : list nat := if fd then [b; m] else [b; m; m].
  (** a metric result: the (b, n, n) tensor, or only its diagonal *)
  Definition present (td : bool) (b n : nat) R : T :=
    if td then tab2 b n (fun q j => R q j j) else tab3 b n n R.
  (** J^T M J and J M J^T *)
  Definition pull_at (m : nat) J (M : nat -> nat -> nat -> K) (q j l : nat) : K :=
    bsum m (fun i => bsum m (fun k => nmul (nmul (J q i j) (M q i k)) (J q k l))).
  Definition push_at (n : nat) J (M : nat -> nat -> nat -> K) (q i k : nat) : K :=
    bsum n (fun j => bsum n (fun l => nmul (nmul (J q i j) (M q j l)) (J q k l))).
  Definition pull (b m n : nat) J (fd td : bool) (M : T) : T :=
    present td b n (pull_at m J (metric fd M)).
  Definition push (b m n : nat) J (fd td : bool) (M : T) : T :=
    present td b m (push_at n J (metric fd M)).
End Spec.
