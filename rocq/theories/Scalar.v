(** Scalars, exceptions and finite sums.

    Models the number type of torch tensors (idealised: exact arithmetic) and Python
    exceptions as values.  Nothing here cites /repo code: it is the vocabulary in which the
    model of the code is written. *)
From Coq Require Import List Arith ZArith Lia Bool.
From Coq Require Export Ring.
From Coq Require Import Reals.
Import ListNotations.

(** Operations on scalars that the library's code applies to tensor entries. *)
Class Num (K : Type) := {
  n0 : K; n1 : K;
  nadd : K -> K -> K; nmul : K -> K -> K; nsub : K -> K -> K; nopp : K -> K;
  ndiv : K -> K -> K;
  nltb : K -> K -> bool;                       (* a < b *)
  nexp : K -> K; nln : K -> K; nsin : K -> K; ncos : K -> K; ntanh : K -> K; nsqrt : K -> K
}.

(** The laws the algebraic theorems use: a commutative ring. *)
Class CRing (K : Type) {N : Num K} : Prop :=
  cring : ring_theory n0 n1 nadd nmul nsub nopp (@eq K).

Declare Scope num_scope.
Delimit Scope num_scope with K.
Notation "a + b" := (nadd a b) : num_scope.
Notation "a * b" := (nmul a b) : num_scope.
Notation "a - b" := (nsub a b) : num_scope.
Notation "- a" := (nopp a) : num_scope.
Notation "a / b" := (ndiv a b) : num_scope.
Notation "0" := n0 : num_scope.
Notation "1" := n1 : num_scope.

(** natural number literal as a scalar (used for means and constants such as 15 and 20) *)
Fixpoint nnat {K} `{Num K} (n : nat) : K :=
  match n with O => n0 | S n' => nadd (nnat n') n1 end.

(** Python exceptions that the modelled code can raise. *)
Inductive exn :=
| AssertionError | NotImplementedError | RuntimeError | TypeError | ValueError
| AttributeError | IndexError.

(** A value or an exception. *)
Inductive res (A : Type) := Ok (a : A) | Raise (e : exn).
Arguments Ok {A} a. Arguments Raise {A} e.

Definition bind {A B} (r : res A) (f : A -> res B) : res B :=
  match r with Ok a => f a | Raise e => Raise e end.
Notation "x <- e ;; k" := (bind e (fun x => k)) (at level 61, e at next level, right associativity).
Notation "' p <- e ;; k" := (bind e (fun x => match x with p => k end))
  (at level 61, p pattern, e at next level, right associativity).

(** [assert c; k] *)
Definition check {A} (c : bool) (e : exn) (k : res A) : res A := if c then k else Raise e.

(** Finite sums: sum of f 0 .. f (n-1). *)
Section Sum.
  Context {K} `{Num K}.
  Fixpoint bsum (n : nat) (f : nat -> K) : K :=
    match n with O => n0 | S n' => nadd (bsum n' f) (f n') end.
End Sum.
Notation "'Σ' ( i < n ) f" := (bsum n (fun i => f%K))
  (at level 50, i name, n at level 69, f at level 51, format "'Σ' ( i  <  n )  f").

(** Instances: the reals (for the analytic theorems) and Z (to execute the model). *)
#[export] Instance Num_R : Num R := {|
  n0 := 0%R; n1 := 1%R; nadd := Rplus; nmul := Rmult; nsub := Rminus; nopp := Ropp;
  ndiv := Rdiv;
  nltb := fun a b => if Rlt_dec a b then true else false;
  nexp := exp; nln := ln; nsin := sin; ncos := cos; ntanh := tanh; nsqrt := sqrt |}.

(** exp, ln, ... are not integer functions: in the Z instance, used only for running the model
    on examples, they are arbitrary. *)
#[export] Instance Num_Z : Num Z := {|
  n0 := 0%Z; n1 := 1%Z; nadd := Z.add; nmul := Z.mul; nsub := Z.sub; nopp := Z.opp;
  ndiv := Z.div; nltb := Z.ltb;
  nexp := fun x => x; nln := fun x => x; nsin := fun x => x; ncos := fun x => x;
  ntanh := fun x => x; nsqrt := Z.sqrt |}.

#[export] Instance CRing_R : CRing R := RTheory.
#[export] Instance CRing_Z : CRing Z := InitialRing.Zth.
