(** One image without a batch dimension: specification. *)
From Coq Require Import List Arith ZArith.
From Verif Require Import Scalar Tensor Conv Abstract Simple Module Domain Calls.
Import ListNotations.
Local Open Scope nat_scope.
Local Open Scope list_scope.

Section ImgSpec.
  Context {K} `{Num K}.
  Notation T := (tensor K).

  (** a layer that works on images *)
  Definition on_images (l : leaf K) : bool := match l with Conv2d _ _ _ | Upsample _ _ => true | _ => false end.
  (** in the forward pass at x, some layer of m that works on images is given a tensor without four dimensions *)
  Section Seq.
    Variable c : module K -> T -> Prop.
    Fixpoint meets_seq (ms : list (module K)) (x : T) : Prop :=
      match ms with
      | [] => False
      | m :: ms => c m x \/ exists y, fwd m x = Ok y /\ meets_seq ms y
      end.
  End Seq.
  Fixpoint meets (m : module K) (x : T) : Prop :=
    match m with
    | Leaf l => on_images l = true /\ length (shape x) <> 4
    | MaxPool _ => length (shape x) <> 4
    | Seq _ ms => meets_seq meets ms x
    | Skip F => meets F x
    end.
  (** the same, where the layers that see the input itself only count when they are convolutions *)
  Fixpoint meets_late (m : module K) (x : T) : Prop :=
    match m with
    | Leaf (Conv2d _ _ _) => length (shape x) <> 4
    | Leaf _ | MaxPool _ => False
    | Seq _ [] => False
    | Seq _ (m :: ms) => meets_late m x \/ exists y, fwd m x = Ok y /\ meets_seq meets ms y
    | Skip F => meets_late F x
    end.
  (** networks of convolutions, pooling layers and activations *)
  Fixpoint image_net (m : module K) : Prop :=
    match m with
    | Leaf (Conv2d _ _ _) | Leaf (Act _) | MaxPool _ => True
    | Leaf _ | Skip _ => False
    | Seq _ ms => fold_right (fun m p => image_net m /\ p) True ms
    end.
  (** every method except forward *)
  Definition is_product (c : call K) : Prop := match c with Forward _ => False | _ => True end.
End ImgSpec.
