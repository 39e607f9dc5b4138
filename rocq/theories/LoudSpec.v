(** Vocabulary of the statements about unsupported forward products (C50). *)
From Coq Require Import List.
From Verif Require Import Scalar Tensor LinearLayer ConvLayer PoolLayer Module.
Import ListNotations.

(** [occurs p m]: the layer or container p is m itself or is nested anywhere inside it *)
Inductive occurs {K} (p : module K) : module K -> Prop :=
| oc_here : occurs p p
| oc_seq h ms m : In m ms -> occurs p m -> occurs p (Seq h ms)
| oc_skip F : occurs p F -> occurs p (Skip F).
Definition is_conv {K} (m : module K) : Prop := match m with Leaf (Conv2d _ _ _) => True | _ => False end.
Definition is_upsample {K} (m : module K) : Prop := match m with Leaf (Upsample _ _) => True | _ => False end.
Definition is_pool {K} (m : module K) : Prop := match m with MaxPool _ => True | _ => False end.
(** the call raises, whatever the exception *)
Definition raises {A B} (r : A * res B) : Prop := exists e, snd r = Raise e.
