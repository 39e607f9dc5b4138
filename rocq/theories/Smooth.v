(** Specification vocabulary over the reals: what it means for a batch of matrices to be the derivative of
    a function between tensors, and at which points the networks are differentiable. *)
From Coq Require Import List Arith Lia Bool Reals.
From Verif Require Import Scalar Sums Tensor Conv Abstract Simple LinearLayer ConvLayer PoolLayer Module Spec Domain.
Import ListNotations.
Local Open Scope nat_scope.
Local Open Scope list_scope.

(** the tensor-valued curve c passes time t0 with velocity d (entry by entry) *)
Definition moves (c : R -> tensor R) (t0 : R) (d : tensor R) : Prop :=
  wf d /\ (forall t, wf (c t) /\ shape (c t) = shape d) /\
  forall k, k < numel (shape d) -> derivable_pt_lim (fun t => nth k (data (c t)) 0%R) t0 (nth k (data d) 0%R).

(** J d: J is a (b, m, n) tensor, d holds b samples of n entries, the result b samples of shape s *)
Definition jac_apply (s : list nat) (J d : tensor R) : tensor R :=
  let b := nth 0 (shape J) 0 in let m := nth 1 (shape J) 0 in let n := nth 2 (shape J) 0 in
  mkT (b :: s) (data (Jv b m n (entry J) (mkT [b; n] (data d)))).

(** J is the derivative of f at x: f maps every curve through x with velocity d to a curve (of samples of
    shape s) with velocity J d *)
Definition derivative_at (f : tensor R -> res (tensor R)) (x : tensor R) (s : list nat) (J : tensor R) : Prop :=
  forall c t0 d, c t0 = x -> moves c t0 d ->
  exists y, (forall t, f (c t) = Ok (y t)) /\ moves y t0 (jac_apply s J d).

(** points at which an activation is differentiable and its derivative formula applies *)
Definition act_smooth (a : act R) (v : R) : Prop :=
  match a with
  | ReLU => v <> 0%R
  | Softplus beta thr => beta <> 0%R /\ (beta * v < thr)%R
  | TruncExp => (-15 <= v <= 15)%R
  | _ => True
  end.
Definition leaf_smooth (l : leaf R) (x : tensor R) : Prop :=
  match l with
  | Act a => forall k, k < numel (shape x) -> act_smooth a (nth k (data x) 0%R)
  | L2Norm eps => eps = 0%R /\ forall q, q < dim x 0 ->
      exists j, j < numel (tl (shape x)) /\ nth (q * numel (tl (shape x)) + j) (data x) 0%R <> 0%R
  | Custom c => exists s J, cu_jacobian c x None Input = Ok (Some J) /\ derivative_at (cu_forward c) x s J
  | _ => True
  end.
(** every pooling window has a unique maximum *)
Definition pool_smooth (cfg : pool_cfg) (x : tensor R) : Prop :=
  forall q ch o1 o2,
  let cs := cells (window (dim x 2) (fst (pk cfg)) (fst (ps cfg)) (fst (pp cfg)) (fst (pd cfg)) o1)
                  (window (dim x 3) (snd (pk cfg)) (snd (ps cfg)) (snd (pp cfg)) (snd (pd cfg)) o2) in
  q < dim x 0 -> ch < dim x 1 -> cs <> [] ->
  exists y1 x1, In (y1, x1) cs /\
    forall y2 x2, In (y2, x2) cs -> (y2, x2) <> (y1, x1) ->
      (get 0%R x [q; ch; y2; x2] < get 0%R x [q; ch; y1; x1])%R.
Section SmoothSeq.
  Variable sm : module R -> tensor R -> Prop.
  Fixpoint smooth_seq (ms : list (module R)) (x : tensor R) : Prop :=
    match ms with
    | [] => True
    | m :: ms => sm m x /\ forall y, fwd m x = Ok y -> smooth_seq ms y
    end.
End SmoothSeq.
Fixpoint smooth (m : module R) (x : tensor R) : Prop :=
  match m with
  | Leaf l => leaf_smooth l x
  | MaxPool cfg => pool_smooth cfg x
  | Seq _ ms => smooth_seq smooth ms x
  | Skip F => smooth F x
  end.

(** the activation functions as the torch documentation defines them *)
Definition act_spec (a : act R) (v : R) : R :=
  match a with
  | Tanh => tanh v
  | ReLU => Rmax 0 v
  | Sigmoid => (/ (1 + exp (- v)))%R
  | Sinusoidal => sin v
  | Softplus beta thr => if Rlt_dec thr (beta * v) then v else (/ beta * ln (1 + exp (beta * v)))%R
  | TruncExp => exp v
  end.
