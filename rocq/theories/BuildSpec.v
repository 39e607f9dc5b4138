(** Vocabulary for the constructors and for what a network accepts. *)
From Coq Require Import String List Arith ZArith Lia Bool.
From Verif Require Import Scalar Tensor Conv Abstract Simple Module Domain Build.
Import ListNotations.
Local Open Scope nat_scope.
Local Open Scope list_scope.

(** settings that the products support: no dilation, one group, zero padding (or none), less padding than the kernel covers *)
Definition plain_conv (a : conv_args) : Prop :=
  pair_of (a_dilation a) = (1, 1) /\ a_groups a = 1 /\
  match a_padding a with
  | PadSize p => (a_mode a = PZeros \/ pair_of p = (0, 0)) /\
                 fst (pair_of p) < fst (pair_of (a_kernel a)) /\ snd (pair_of p) < snd (pair_of (a_kernel a))
  | PadStr _ => True
  end.
(** pooling windows that are not wider than the stride *)
Definition plain_pool (k s d : nat) : Prop := (k - 1) * d < s.

Section BuildSpec.
  Context {K} `{Num K}.
  Notation T := (tensor K).

  (** networks of layers with such settings *)
  Fixpoint plain (e : expr K) : Prop :=
    match e with
    | ELinear _ o _ _ _ => 0 < o
    | EConv a _ _ => plain_conv a
    | EPool k s _ d _ => plain_pool (fst (pair_of k)) (fst (pair_of (match s with Some s => s | None => k end))) (fst (pair_of d)) /\
                         plain_pool (snd (pair_of k)) (snd (pair_of (match s with Some s => s | None => k end))) (snd (pair_of d))
    | EUpsample sn sd => 0 < sd /\ sn mod sd = 0
    | EAct _ | EFlatten | EReshape _ | EL2Norm _ | Foreign => True
    | ESeq h es | ESkip h es => h = true /\ fold_right (fun e p => plain e /\ p) True es
    end.
  (** in the forward pass at x, every Linear is given (batch, features) and every layer that works on images a batch of images *)
  Section Seq.
    Variable c : module K -> T -> Prop.
    Fixpoint fits_seq (ms : list (module K)) (x : T) : Prop :=
      match ms with
      | [] => True
      | m :: ms => c m x /\ forall y, fwd m x = Ok y -> fits_seq ms y
      end.
  End Seq.
  Fixpoint fits (m : module K) (x : T) : Prop :=
    match m with
    | Leaf (Linear _ _) => length (shape x) = 2
    | Leaf (Conv2d _ _ _) | Leaf (Upsample _ _) | MaxPool _ => length (shape x) = 4
    | Leaf _ => True
    | Seq _ ms => fits_seq fits ms x
    | Skip F => fits F x
    end.
  (** the same shape, or the same exception *)
  Definition same_outcome (r r' : res T) : Prop :=
    match r, r' with
    | Ok y, Ok y' => shape y = shape y'
    | Raise e, Raise e' => e = e'
    | _, _ => False
    end.
  (** without user-defined layers *)
  Fixpoint no_custom (m : module K) : Prop :=
    match m with
    | Leaf (Custom _) => False
    | Leaf _ | MaxPool _ => True
    | Seq _ ms => fold_right (fun m p => no_custom m /\ p) True ms
    | Skip F => no_custom F
    end.
  (** what the constructors accept *)
  Fixpoint legal (e : expr K) : Prop :=
    match e with
    | EConv a _ _ => 0 < a_groups a /\ Nat.divide (a_groups a) (a_in a) /\ Nat.divide (a_groups a) (a_out a) /\
                     pair_of (a_stride a) = (1, 1) /\ exists p, a_padding a = PadSize p
    | ESeq _ es | ESkip _ es => fold_right (fun e p => legal e /\ p) True es
    | Foreign => False
    | _ => True
    end.
  (** the number of parameters that the arguments ask for *)
  Fixpoint asked (e : expr K) : nat :=
    match e with
    | ELinear i o bias _ _ => o * i + (if bias then o else 0)
    | EConv a _ _ => a_out a * (a_in a / a_groups a) * fst (pair_of (a_kernel a)) * snd (pair_of (a_kernel a)) + (if a_bias a then a_out a else 0)
    | ESeq _ es | ESkip _ es => fold_right (fun e n => asked e + n) 0 es
    | _ => 0
    end.
End BuildSpec.
