(** Specification of the layer-by-layer diagonal approximation (diag_backprop=True): a diagonal metric is carried
    through the network by keeping, after every layer, only the diagonal of the transformed metric. *)
From Coq Require Import List Arith Bool.
From Verif Require Import Scalar Sums Tensor Abstract Module Spec Domain.
Import ListNotations.
Local Open Scope nat_scope.

Section DiagSpec.
  Context {K} `{Num K}.
  Notation T := (tensor K).
  (** a diagonal metric: entry i of sample q *)
  Definition dmetric : Type := nat -> nat -> K.
  (** size of one sample *)
  Definition width (t : T) : nat := numel (tl (shape t)).
  (** the matrix the module's jacobian method returns *)
  Definition layer_J (m : module K) (x : T) (w : wrt) (q i j : nat) : K :=
    match snd (jacobian m st0 x None w) with Ok (Some J) => entry J q i j | _ => n0 end.
  (** diagonal of J^T diag(d) J (J has n rows) and of J diag(d) J^T (J has n columns) *)
  Definition diag_pull (n : nat) (J : nat -> nat -> nat -> K) (d : dmetric) : dmetric :=
    fun q j => bsum n (fun i => nmul (nmul (J q i j) (d q i)) (J q i j)).
  Definition diag_push (n : nat) (J : nat -> nat -> nat -> K) (d : dmetric) : dmetric :=
    fun q i => bsum n (fun j => nmul (nmul (J q i j) (d q j)) (J q i j)).
  (** the metric diag(d) as a matrix *)
  Definition dmat (d : dmetric) : nat -> nat -> nat -> K := fun q i k => if Nat.eqb i k then d q i else n0.

  Section S.
    Variable f : module K -> T -> dmetric -> dmetric.
    Fixpoint seq_dpull (ms : list (module K)) (x : T) (d : dmetric) : dmetric :=
      match ms with
      | [] => d
      | m :: ms => match fwd m x with Ok y => f m x (seq_dpull ms y d) | Raise _ => d end
      end.
    Fixpoint seq_dpush (ms : list (module K)) (x : T) (d : dmetric) : dmetric :=
      match ms with
      | [] => d
      | m :: ms => match fwd m x with Ok y => seq_dpush ms y (f m x d) | Raise _ => d end
      end.
  End S.
  (** backwards, from the output of m to its input *)
  Fixpoint dpull (m : module K) (x : T) (d : dmetric) {struct m} : dmetric :=
    match m with
    | Leaf _ | MaxPool _ => match fwd m x with Ok y => diag_pull (width y) (layer_J m x Input) d | Raise _ => d end
    | Seq _ ms => seq_dpull dpull ms x d
    | Skip F => fun q j => nadd (d q j) (dpull F x (fun q i => d q (width x + i)) q j)
    end.
  (** forwards, from the input of m to its output *)
  Fixpoint dpush (m : module K) (x : T) (d : dmetric) {struct m} : dmetric :=
    match m with
    | Leaf _ | MaxPool _ => diag_push (width x) (layer_J m x Input) d
    | Seq _ ms => seq_dpush dpush ms x d
    | Skip F => fun q i => if i <? width x then d q i else dpush F x d q (i - width x)
    end.
  Section W.
    Variable f : module K -> T -> dmetric -> dmetric.
    Fixpoint seq_dpullw (ms : list (module K)) (x : T) (d : dmetric) : dmetric :=
      match ms with
      | [] => fun _ _ => n0
      | m :: ms =>
          match fwd m x with
          | Ok y => fun q p => if p <? n_params m then f m x (seq_dpull dpull ms y d) q p
                               else seq_dpullw ms y d q (p - n_params m)
          | Raise _ => fun _ _ => n0
          end
      end.
    (** [acc]: the diagonal collected from the parameters before x; [d]: the metric of the remaining parameters *)
    Fixpoint seq_dpushw (ms : list (module K)) (x : T) (d acc : dmetric) : dmetric :=
      match ms with
      | [] => acc
      | m :: ms =>
          match fwd m x with
          | Ok y => seq_dpushw ms y (fun q p => d q (n_params m + p)) (fun q i => nadd (dpush m x acc q i) (f m x d q i))
          | Raise _ => acc
          end
      end.
  End W.
  (** from the output of m to its parameters *)
  Fixpoint dpullw (m : module K) (x : T) (d : dmetric) {struct m} : dmetric :=
    match m with
    | Leaf _ | MaxPool _ => match fwd m x with Ok y => diag_pull (width y) (layer_J m x Weight) d | Raise _ => d end
    | Seq _ ms => seq_dpullw dpullw ms x d
    | Skip F => dpullw F x (fun q i => d q (width x + i))
    end.
  (** from the parameters of m to its output *)
  Fixpoint dpushw (m : module K) (x : T) (d : dmetric) {struct m} : dmetric :=
    match m with
    | Leaf _ | MaxPool _ => diag_push (n_params m) (layer_J m x Weight) d
    | Seq _ ms => seq_dpushw dpushw ms x d (fun _ _ => n0)
    | Skip F => fun q i => if i <? width x then n0 else dpushw F x d q (i - width x)
    end.

  (** every intermediate metric of the exact backward pass from diag(d) is diagonal (batch size b, output size n) *)
  Section E.
    Variable e : module K -> T -> nat -> dmetric -> Prop.
    Fixpoint seq_diag_chain (b : nat) (ms : list (module K)) (x : T) (n : nat) (d : dmetric) : Prop :=
      match ms with
      | [] => True
      | m :: ms =>
          match fwd m x with
          | Ok y => seq_diag_chain b ms y n d /\
              (forall q i k, q < b -> i < width y -> k < width y -> i <> k ->
                 pull_at n (layer_J (Seq true ms) y Input) (dmat d) q i k = n0) /\
              e m x (width y) (seq_dpull dpull ms y d)
          | Raise _ => True
          end
      end.
  End E.
  Fixpoint diag_chain (b : nat) (m : module K) (x : T) (n : nat) (d : dmetric) {struct m} : Prop :=
    match m with
    | Leaf _ | MaxPool _ => True
    | Seq _ ms => seq_diag_chain (diag_chain b) b ms x n d
    | Skip F => diag_chain b F x (n - width x) (fun q i => d q (width x + i))
    end.
  (** the same for the forward pass from a metric on the input *)
  Section P.
    Variable e : module K -> T -> dmetric -> Prop.
    Fixpoint seq_push_chain (b : nat) (ms : list (module K)) (x : T) (d : dmetric) : Prop :=
      match ms with
      | [] => True
      | m :: ms =>
          match fwd m x with
          | Ok y => e m x d /\
              (ms <> [] -> forall q i k, q < b -> i < width y -> k < width y -> i <> k ->
                 push_at (width x) (layer_J m x Input) (dmat d) q i k = n0) /\
              seq_push_chain b ms y (dpush m x d)
          | Raise _ => True
          end
      end.
  End P.
  Fixpoint push_chain (b : nat) (m : module K) (x : T) (d : dmetric) {struct m} : Prop :=
    match m with
    | Leaf _ | MaxPool _ => True
    | Seq _ ms => seq_push_chain (push_chain b) b ms x d
    | Skip F => push_chain b F x d
    end.
  (** and from a metric on the parameters: the metric accumulated after every module is diagonal *)
  Section Q.
    Variable e : module K -> T -> dmetric -> Prop.
    Fixpoint seq_pushw_chain (b : nat) (ms : list (module K)) (x : T) (d acc : dmetric) : Prop :=
      match ms with
      | [] => True
      | m :: ms =>
          match fwd m x with
          | Ok y => push_chain b m x acc /\ e m x d /\
              (ms <> [] -> forall q i k, q < b -> i < width y -> k < width y -> i <> k ->
                 nadd (push_at (width x) (layer_J m x Input) (dmat acc) q i k)
                      (push_at (n_params m) (layer_J m x Weight) (dmat d) q i k) = n0) /\
              seq_pushw_chain b ms y (fun q p => d q (n_params m + p)) (fun q i => nadd (dpush m x acc q i) (dpushw m x d q i))
          | Raise _ => True
          end
      end.
  End Q.
  Fixpoint pushw_chain (b : nat) (m : module K) (x : T) (d : dmetric) {struct m} : Prop :=
    match m with
    | Leaf _ | MaxPool _ => True
    | Seq _ ms => seq_pushw_chain (pushw_chain b) b ms x d (fun _ _ => n0)
    | Skip F => pushw_chain b F x d
    end.
End DiagSpec.
