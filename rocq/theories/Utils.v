(** Model of nnj/utils.py: convert_to_nnj and invert_block_diagonal. *)
From Coq Require Import String Ascii List Arith ZArith Lia Bool.
From Verif Require Import Scalar Tensor Conv Abstract Simple LinearLayer ConvLayer PoolLayer Module.
Import ListNotations.
Local Open Scope nat_scope.
Local Open Scope list_scope.

Section Utils.
  Context {K} `{Num K}.
  Notation gt := (get (@n0 K _)).
  Notation T := (tensor K).

  (** The torch.nn layers that can be met in the argument of convert_to_nnj.  TAct: nn.Tanh, nn.ReLU,
      nn.Sigmoid, nn.Softplus(beta, threshold).  TOther: any layer whose class name nnj does not export
      (AvgPool2d, GELU, ...). *)
  Inductive tlayer :=
  | TLinear (W : T) (bias : option T)
  | TConv2d (cfg : conv_cfg) (W : T) (bias : option T)
  | TMaxPool2d (cfg : pool_cfg)
  | TAct (a : act K)
  | TFlatten
  | TUpsample (sn sd : nat)
  | TSequential (ls : list tlayer)
  | TOther (f : T -> res T).

  (** torch's own forward of these layers *)
  Fixpoint t_forward (l : tlayer) (x : T) : res T :=
    match l with
    | TLinear W b => lin_forward W b x
    | TConv2d c W b => conv_forward c W b x
    | TMaxPool2d c => '(v, _) <- max_pool2d c x ;; Ok v
    | TAct a => act_forward a x
    | TFlatten => flatten_forward x
    | TUpsample sn sd => up_forward sn sd x
    | TSequential ls => fold_left (fun r l => x <- r ;; t_forward l x) ls (Ok x)
    | TOther f => f x
    end.
  Definition t_seq_forward (ls : list tlayer) (x : T) : res T :=
    fold_left (fun r l => x <- r ;; t_forward l x) ls (Ok x).

  (** nnj.Conv2d's configuration when only in_channels, out_channels and kernel_size are given *)
  Definition default_conv : conv_cfg :=
    {| cstride := (1, 1); cpad := (0, 0); cdil := (1, 1); cgroups := 1; cmode := PZeros; cvmap := true |}.
  (** nn.MaxPool2d's configuration when only kernel_size is given: stride = kernel_size *)
  Definition default_pool (k : nat * nat) : pool_cfg :=
    {| pk := k; ps := k; pp := (0, 0); pd := (1, 1); pceil := false |}.
  (** nnj.Upsample() has neither size nor scale_factor: F.interpolate raises ValueError.
      Simplification: its jacobian is taken to raise as well. *)
  Definition upsample_no_args : custom K :=
    {| cu_forward := fun _ => Raise ValueError; cu_jacobian := fun _ _ _ => Raise ValueError |}.
  (** activations are rebuilt without arguments; nn.Softplus() has beta=1, threshold=20 *)
  Definition default_act (a : act K) : act K :=
    match a with Softplus _ _ => Softplus n1 (nnat 20) | a => a end.

  (** utils.py:12-34: one iteration of the loop.  nnj_layer.bias.data = layer.bias.data raises
      AttributeError when the layer has no bias. *)
  Definition convert_layer (l : tlayer) : res (module K) :=
    match l with
    | TLinear W b => match b with Some t => Ok (Leaf (Linear W (Some t))) | None => Raise AttributeError end
    | TConv2d _ W b =>
        match b with Some t => Ok (Leaf (Conv2d default_conv W (Some t))) | None => Raise AttributeError end
    | TMaxPool2d c => Ok (MaxPool (default_pool (pk c)))
    | TAct a => Ok (Leaf (Act (default_act a)))
    | TFlatten => Ok (Leaf Flatten)
    | TUpsample _ _ => Ok (Leaf (Custom upsample_no_args))
    | TSequential _ => Ok (Seq true [])
    | TOther _ => Raise AttributeError
    end.
  (** utils.py:10-39 *)
  Definition convert_to_nnj (ls : list tlayer) : res (module K) :=
    ms <- mapM convert_layer ls ;; Ok (Seq true ms).

  (** Entry (i, j) of the inverse of a lower triangular matrix, by forward substitution:
      row i uses the rows above. *)
  Fixpoint tri_inv_rows (L : nat -> nat -> K) (n : nat) : list (nat -> K) :=
    match n with
    | O => []
    | S i =>
        let rows := tri_inv_rows L i in
        rows ++ [fun j => ndiv (nsub (if Nat.eqb i j then n1 else n0)
                                  (bsum i (fun k => nmul (L i k) (nth k rows (fun _ => n0) j)))) (L i i)]
    end.
  Definition tri_inv (L : nat -> nat -> K) (n : nat) (i j : nat) : K :=
    nth i (tri_inv_rows L n) (fun _ => n0) j.
  (** torch.cholesky_inverse(t) of a square matrix or of a batch of them, with any number of batch
      dimensions: with L the lower triangular part of each matrix, the inverse of L L^T.
      Simplification: a zero on the diagonal, for which LAPACK raises, divides by zero here. *)
  Definition lower (t : T) (pre : list nat) (i j : nat) : K := if Nat.leb j i then gt t (pre ++ [i; j]) else n0.
  Definition cholesky_inverse (t : T) : res T :=
    let r := List.length (shape t) in
    let n := nth (r - 1) (shape t) 0 in
    if Nat.ltb r 2 then Raise RuntimeError
    else if Nat.eqb (nth (r - 2) (shape t) 0) n then
      Ok (tab (shape t) (fun idx =>
            let pre := firstn (r - 2) idx in
            bsum n (fun k => nmul (tri_inv (lower t pre) n k (nth (r - 2) idx 0))
                                  (tri_inv (lower t pre) n k (nth (r - 1) idx 0)))))
    else Raise RuntimeError.

  (** utils.py:42-45 *)
  Fixpoint invert_block_diagonal (v : value K) : res (value K) :=
    match v with
    | VNone => Raise TypeError
    | VT t => t <- cholesky_inverse t ;; Ok (VT t)
    | VL l => l <- (fix go (l : list (value K)) : res (list (value K)) :=
                      match l with
                      | [] => Ok []
                      | v :: l => v <- invert_block_diagonal v ;; l <- go l ;; Ok (v :: l)
                      end) l ;; Ok (VL l)
    end.
End Utils.
Arguments tlayer K : clear implicits.
