(** Which numbers of columns vjp accepts in the vector it propagates: the specification of C64. *)
From Coq Require Import List Arith Bool.
From Verif Require Import Scalar Tensor Conv Abstract Simple LinearLayer ConvLayer PoolLayer Module Domain Jac.
Import ListNotations.
Local Open Scope nat_scope.
Local Open Scope list_scope.

(** torch's rule for two sizes that have to agree: equal, or one of them is 1 and is broadcast *)
Definition meets (a c : nat) : option nat :=
  if a =? c then Some a else if a =? 1 then Some c else if c =? 1 then Some a else None.
Definition fits (a c r : nat) : option nat := match meets a c with Some _ => Some r | None => None end.
Definition equals (a c r : nat) : option nat := if a =? c then Some r else None.

Section Width.
  Context {K} `{N : Num K}.
  Notation T := (tensor K).

  Section Seq.
    Variable wd : module K -> T -> nat -> option nat.
    Fixpoint seq_width (ms : list (module K)) (x : T) (k : nat) : option nat :=
      match ms with
      | [] => Some k
      | m :: ms =>
          match fwd m x with
          | Ok y => match seq_width ms y k with Some k => wd m x k | None => None end
          | Raise _ => None
          end
      end.
  End Seq.
  (** the number of columns of vjp's result at x for a vector with k columns; None: the call raises *)
  Fixpoint width (m : module K) (x : T) (k : nat) : option nat :=
    match m with
    | Leaf Flatten | Leaf (Reshape _) => Some k
    | Leaf (Act _) => meets k (per x)
    | Leaf (Linear W _) => fits k (nth 0 (shape W) 0) (per x)
    | Leaf (L2Norm _) | Leaf (Custom _) => match fwd m x with Ok y => fits k (per y) (per x) | Raise _ => None end
    | Leaf (Conv2d _ _ _) | Leaf (Upsample _ _) | MaxPool _ => match fwd m x with Ok y => equals k (per y) (per x) | Raise _ => None end
    | Seq _ ms => seq_width width ms x k
    | Skip F => match width F x (k - per x) with Some r => meets (Nat.min k (per x)) r | None => None end
    end.

  (** layers without skip connections, none of which has exactly one output entry; only Flatten and Reshape *)
  Section Plain.
    Variable f : module K -> T -> Prop.
    Fixpoint plain_seq (ms : list (module K)) (x : T) : Prop :=
      match ms with
      | [] => True
      | m :: ms => f m x /\ forall y, fwd m x = Ok y -> plain_seq ms y
      end.
  End Plain.
  Fixpoint no_single (m : module K) (x : T) : Prop :=
    match m with
    | Leaf _ | MaxPool _ => forall y, fwd m x = Ok y -> per y <> 1
    | Seq _ ms => plain_seq no_single ms x
    | Skip _ => False
    end.
  Fixpoint reshapes (m : module K) : Prop :=
    match m with
    | Leaf Flatten | Leaf (Reshape _) => True
    | Leaf _ | MaxPool _ | Skip _ => False
    | Seq _ ms => (fix go l := match l with [] => True | m :: l => reshapes m /\ go l end) ms
    end.
End Width.
