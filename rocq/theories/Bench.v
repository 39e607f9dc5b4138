(** Model of the benchmark benchmarks/ggn/nnj.py with benchmarks/models.py and of the first example of README.md,
    and what is said about them. *)
From Coq Require Import List Arith Bool Reals.
From Verif Require Import Scalar Sums Tensor Conv Abstract Simple LinearLayer ConvLayer PoolLayer Module LogLik Utils UtilSpec Domain Smooth.
Import ListNotations.
Local Open Scope nat_scope.
Local Open Scope list_scope.

Section Bench.
  Context {K} `{Num K}.
  Notation T := (tensor K).

  (** benchmarks/models.py:3-10: Linear and Tanh alternating, for any number of layers and any weights *)
  Definition linear_model (Ps : list (T * T)) : list (tlayer K) :=
    flat_map (fun p => [TLinear (fst p) (Some (snd p)); TAct Tanh]) Ps.
  (** benchmarks/ggn/nnj.py:9-10: GGN.__init__ *)
  Definition bench_init (ls : list (tlayer K)) : res (module K) := convert_to_nnj ls.
  (** benchmarks/ggn/nnj.py:12-28: GGN.ggn (y is not used) *)
  Definition bench_ggn (m : module K) (s : st K) (X : T) : st K * res T :=
    let '(s, r) := jTmjp m s X None VNone Weight false true false in
    (s, v <- r ;; t <- to_tensor v ;; Ok (mean0 t)).

  (** README.md:37-41 and 54: val = model(x); residual = val - target;
      gradient = model.vjp(x, val, residual, wrt="weight"); torch.mean(gradient, dim=0) *)
  Definition readme_gradient (m : module K) (s : st K) (x target : T) : st K * res T :=
    let '(s, r) := forward m s x in
    match (val <- r ;; rs <- tsub val target ;; Ok (val, rs)) with
    | Raise e => (s, Raise e)
    | Ok (val, rs) => let '(s, r) := vjp m s x (Some val) rs Weight in (s, g <- r ;; g <- need g ;; Ok (mean0 g))
    end.
End Bench.

(** *** Specification: torch networks and the derivatives of their outputs with respect to their parameters *)
Section TorchSpec.
  Context {K} `{Num K}.
  Notation T := (tensor K).
  (** the layer maps samples of shape s to samples of shape s' *)
  Definition t_fits (l : tlayer K) (s s' : list nat) : Prop :=
    match l with
    | TLinear W b => leaf_typed (Linear W b) s s'
    | TConv2d cfg W b => leaf_typed (Conv2d cfg W b) s s'
    | TMaxPool2d cfg => pool_typed cfg s s'
    | TAct a => leaf_typed (Act a) s s'
    | TFlatten => leaf_typed (@Flatten K) s s'
    | _ => False
    end.
  Fixpoint t_fits_seq (ls : list (tlayer K)) (s s' : list nat) : Prop :=
    match ls with
    | [] => s = s' /\ 0 < numel s
    | l :: ls => exists s1, t_fits l s s1 /\ t_fits_seq ls s1 s'
    end.
  (** the same layer with other parameter values *)
  Definition t_alike (l l' : tlayer K) : Prop :=
    match l, l' with
    | TLinear W b, TLinear W' b' => shape W = shape W' /\ option_map shape b = option_map shape b' /\ wf W' /\ (forall t, b' = Some t -> wf t)
    | TConv2d c W b, TConv2d c' W' b' =>
        c = c' /\ shape W = shape W' /\ option_map shape b = option_map shape b' /\ wf W' /\ (forall t, b' = Some t -> wf t)
    | _, _ => l = l'
    end.
  (** all parameters in order, as one vector *)
  Definition t_weight (ls : list (tlayer K)) : T :=
    let d := flat_map (@data K) (flat_map t_params ls) in mkT [length d] d.
End TorchSpec.
(** the layer is differentiable at x *)
Definition t_smooth (l : tlayer R) (x : tensor R) : Prop :=
  match l with
  | TAct a => leaf_smooth (Act a) x
  | TMaxPool2d cfg => pool_smooth cfg x
  | _ => True
  end.
Fixpoint t_smooth_seq (ls : list (tlayer R)) (x : tensor R) : Prop :=
  match ls with
  | [] => True
  | l :: ls => t_smooth l x /\ forall y, t_forward l x = Ok y -> t_smooth_seq ls y
  end.
(** J is the derivative of the outputs of the torch network at x with respect to its parameters: along every
    curve of networks through ls, the outputs move with velocity J dw, where dw is the velocity of the parameters *)
Definition t_derivative (ls : list (tlayer R)) (x : tensor R) (b : nat) (s' : list nat) (J : nat -> nat -> nat -> R) : Prop :=
  forall (lc : R -> list (tlayer R)) t0 dw, lc t0 = ls -> (forall t, Forall2 t_alike ls (lc t)) ->
  moves (fun t => t_weight (lc t)) t0 dw ->
  exists y v, (forall t, t_seq_forward (lc t) x = Ok (y t)) /\ moves y t0 v /\ shape v = b :: s' /\
    forall q i, q < b -> i < numel s' ->
      nth (q * numel s' + i) (data v) 0%R = bsum (numel (shape (t_weight ls))) (fun p => J q i p * nth p (data dw) 0)%R.
