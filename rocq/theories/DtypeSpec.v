(** What a user expects of floating-point types: a network, an input and vectors of one dtype give results of
    that dtype with its full precision, and no call raises because of dtypes. *)
From Coq Require Import List Arith Bool.
From Verif Require Import Scalar Tensor Conv Abstract Simple LinearLayer ConvLayer PoolLayer Module Dtype.
Import ListNotations.

Section DtypeSpec.
  Context {K} `{Num K}.
  (** [d]: the dtype of the network, its input and the vectors; [dd]: torch's default dtype *)
  Variables d dd : dtype.

  (** of dtype d, and never rounded to a coarser one *)
  Definition good (n : num) : Prop := dt n = d /\ dle d (acc n) = true.
  Definition good_opt (o : option num) : Prop := match o with Some n => good n | None => True end.
  Inductive good_value : tvalue -> Prop :=
  | gv_none : good_value TN
  | gv_tensor n : good n -> good_value (TT n)
  | gv_list l : Forall good_value l -> good_value (TL l).
  (** the stored feature maps have dtype d *)
  Inductive good_state : tst -> Prop :=
  | gs_intro fm ks : Forall good fm -> Forall good_state ks -> good_state (TSt fm ks).
  (** a good result, or an exception that has nothing to do with dtypes *)
  Definition fit {A} (P : A -> Prop) (r : res A) : Prop :=
    match r with Ok a => P a | Raise e => e <> RuntimeError end.

  (** no layer that creates tensors of torch's default dtype, except an identity that is promoted (L2Norm) *)
  Fixpoint plain (m : module K) : bool :=
    match m with
    | Leaf (Conv2d _ _ _) | Leaf (Upsample _ _) | MaxPool _ => false
    | Leaf (L2Norm _) => dle dd d
    | Leaf _ => true
    | Seq _ ms => forallb plain ms
    | Skip F => plain F
    end.
  (** as plain, but convolutions with use_vmap_for_backprop are allowed *)
  Fixpoint backward (m : module K) : bool :=
    match m with
    | Leaf (Conv2d cfg _ _) => cvmap cfg
    | Leaf (Upsample _ _) | MaxPool _ => false
    | Leaf (L2Norm _) => dle dd d
    | Leaf _ => true
    | Seq _ ms => forallb backward ms
    | Skip F => backward F
    end.
  (** a Sequential, or SkipConnections around one *)
  Fixpoint composite (m : module K) : bool :=
    match m with Seq _ _ => true | Skip F => composite F | _ => false end.
  (** every Sequential with add_hooks=True *)
  Fixpoint hooked (m : module K) : bool :=
    match m with Seq h ms => h && forallb hooked ms | Skip F => hooked F | _ => true end.

  (** the layers whose product with a vector of dtype d fails *)
  Fixpoint spoils (m : module K) : bool :=
    match m with
    | Leaf (Upsample _ _) | MaxPool _ => negb (dtype_eqb d dd)
    | Leaf (L2Norm _) => negb (dle dd d)
    | Leaf _ => false
    | Seq _ ms => existsb spoils ms
    | Skip F => spoils F
    end.
  (** the layers whose gradient goes through the default dtype *)
  Fixpoint lossy (m : module K) : bool :=
    match m with
    | Leaf (Conv2d cfg _ _) => negb (cvmap cfg) && negb (dtype_eqb d dd)
    | Seq _ ms => existsb lossy ms
    | Skip F => lossy F
    | _ => false
    end.
  (** of a finer dtype than d, or rounded to a coarser one *)
  Definition bad (n : num) : Prop := dle (dt n) d = false \/ dle d (acc n) = false.
End DtypeSpec.
