(** Specification for the constructor argument add_hooks. *)
From Coq Require Import List.
From Verif Require Import Tensor Abstract Module.
Import ListNotations.

(** the same network built with add_hooks=True everywhere (sequential.py:10, skipconnection.py:11) *)
Fixpoint hooked {K} (m : module K) : module K :=
  match m with
  | Seq _ ms => Seq true (map hooked ms)
  | Skip F => Skip (hooked F)
  | Leaf _ | MaxPool _ => m
  end.
(** a user-defined layer whose jacobian in the input is never None *)
Definition custom_answers {K} (c : custom K) : Prop := forall x val, cu_jacobian c x val Input <> Scalar.Ok None.
Fixpoint answers {K} (m : module K) : Prop :=
  match m with
  | Leaf (Custom c) => custom_answers c
  | Leaf _ | MaxPool _ => True
  | Seq _ ms => (fix go l := match l with [] => True | m :: l => answers m /\ go l end) ms
  | Skip F => answers F
  end.
