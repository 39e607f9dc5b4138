(** Specification vocabulary for batch independence: selecting samples of a batch.  Nothing here refers to
    the products. *)
From Coq Require Import List Arith Lia Bool.
From Verif Require Import Scalar Tensor Abstract Module.
Import ListNotations.
Local Open Scope nat_scope.
Local Open Scope list_scope.

Section Pick.
  Context {K} `{Num K}.
  Notation gt := (get (@n0 K _)).
  Notation T := (tensor K).

  (** the batch whose sample i is sample f i of t, for i < n: torch's t[[f 0, ..., f (n-1)]].
      f may drop, repeat and reorder samples. *)
  Definition pick (n : nat) (f : nat -> nat) (t : T) : T :=
    tab (n :: tl (shape t)) (fun idx => gt t (f (hd 0 idx) :: tl idx)).
  (** the batch that holds only sample q *)
  Definition sample (q : nat) (t : T) : T := pick 1 (fun _ => q) t.
  (** f selects samples of a batch of b *)
  Definition selects (n : nat) (f : nat -> nat) (b : nat) : Prop := forall i, i < n -> f i < b.
  (** selecting in (nested lists of) batches *)
  Fixpoint vpick (n : nat) (f : nat -> nat) (v : value K) : value K :=
    match v with
    | VNone => VNone
    | VT t => VT (pick n f t)
    | VL l => VL (map (vpick n f) l)
    end.

  (** a user-defined layer that treats the samples of a batch independently *)
  Definition custom_batchwise (c : custom K) : Prop :=
    forall b s n f (x y J : T), 0 < b -> wf x -> shape x = b :: s -> 0 < n -> selects n f b ->
      (cu_forward c x = Ok y -> cu_forward c (pick n f x) = Ok (pick n f y)) /\
      (cu_jacobian c x None Input = Ok (Some J) -> cu_jacobian c (pick n f x) None Input = Ok (Some (pick n f J))).
  (** every user-defined layer of the tree treats the samples independently; no condition on the layers
      of the library *)
  Fixpoint batchwise (m : module K) : Prop :=
    match m with
    | Leaf (Custom c) => custom_batchwise c
    | Leaf _ | MaxPool _ => True
    | Seq _ ms => (fix go l := match l with [] => True | m :: l => batchwise m /\ go l end) ms
    | Skip F => batchwise F
    end.
  Fixpoint batchwise_seq (ms : list (module K)) : Prop :=
    match ms with [] => True | m :: l => batchwise m /\ batchwise_seq l end.
End Pick.
