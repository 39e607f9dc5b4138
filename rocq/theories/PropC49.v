(** C49: what forward computes. *)
From Coq Require Import List Arith ZArith Bool Reals.
From Verif Require Import Scalar Sums Tensor Conv Abstract Simple LinearLayer ConvLayer PoolLayer Module Spec Domain LeafSpec LeafPool PoolExact Examples LayerWitness FwdSpec Fwd.
Import ListNotations.
Local Open Scope nat_scope.
Local Open Scope list_scope.

(** C49.  MaxPool2d returns the maximum of each window (windows may overlap, dilation and ceil_mode included) *)
Theorem C49_maxpool : forall cfg c h w h2 w2 b (x : tensor R),
  pool_sized cfg [c; h; w] [c; h2; w2] -> 0 < b -> wf x -> shape x = [b; c; h; w] ->
  exists y, fwd (MaxPool cfg) x = Ok y /\ wf y /\ shape y = [b; c; h2; w2] /\
    forall q ch i j, q < b -> ch < c -> i < h2 -> j < w2 ->
      let inside r t := in_window h (fst (pk cfg)) (fst (ps cfg)) (fst (pp cfg)) (fst (pd cfg)) i r /\
                        in_window w (snd (pk cfg)) (snd (ps cfg)) (snd (pp cfg)) (snd (pd cfg)) j t in
      (forall r t, inside r t -> (get 0 x [q; ch; r; t] <= get 0 y [q; ch; i; j])%R) /\
      exists r t, inside r t /\ get 0%R y [q; ch; i; j] = get 0%R x [q; ch; r; t].
Proof. exact pool_is_max. Qed.
Print Assumptions C49_maxpool.
Theorem C49_linear : forall (K : Type) (N : Num K) (CR : CRing K) W bias c1 c2 b (x : tensor K),
  leaf_typed (Linear W bias) [c1] [c2] -> shape x = [b; c1] ->
  exists y, fwd (Leaf (Linear W bias)) x = Ok y /\ wf y /\ shape y = [b; c2] /\
    forall q i, q < b -> i < c2 -> get n0 y [q; i] = nadd (bsum c1 (fun j => nmul (get n0 W [i; j]) (get n0 x [q; j]))) (bias_at bias i).
Proof. exact (fun K N CR => linear_is). Qed.
Print Assumptions C49_linear.
(** Conv2d with zero padding: any stride, padding, dilation and number of groups; pixels outside the image are zero *)
Theorem C49_conv : forall (K : Type) (N : Num K) (CR : CRing K) cfg (W : tensor K) bias b c1 h w c2 cg kh kw (x y : tensor K),
  cmode cfg = PZeros -> shape x = [b; c1; h; w] -> shape W = [c2; cg; kh; kw] -> fwd (Leaf (Conv2d cfg W bias)) x = Ok y ->
  exists h2 w2, wf y /\ shape y = [b; c2; h2; w2] /\
    (h2 - 1) * fst (cstride cfg) + fst (cdil cfg) * (kh - 1) + 1 <= h + 2 * fst (cpad cfg) /\
    h + 2 * fst (cpad cfg) < h2 * fst (cstride cfg) + fst (cdil cfg) * (kh - 1) + 1 /\
    (w2 - 1) * snd (cstride cfg) + snd (cdil cfg) * (kw - 1) + 1 <= w + 2 * snd (cpad cfg) /\
    w + 2 * snd (cpad cfg) < w2 * snd (cstride cfg) + snd (cdil cfg) * (kw - 1) + 1 /\
    forall q o r t, q < b -> o < c2 -> r < h2 -> t < w2 ->
      get n0 y [q; o; r; t] = nadd (bsum cg (fun c => bsum kh (fun u => bsum kw (fun v =>
        nmul (get n0 W [o; c; u; v])
             (pixel x h w q (o / (c2 / cgroups cfg) * cg + c)
                (Z.of_nat (r * fst (cstride cfg) + u * fst (cdil cfg)) - Z.of_nat (fst (cpad cfg)))
                (Z.of_nat (t * snd (cstride cfg) + v * snd (cdil cfg)) - Z.of_nat (snd (cpad cfg)))))))) (bias_at bias o).
Proof. exact (fun K N CR => conv_is). Qed.
Print Assumptions C49_conv.
Theorem C49_upsample : forall (K : Type) (N : Num K) k c h w b (x : tensor K), 0 < k -> 0 < h -> 0 < w -> shape x = [b; c; h; w] ->
  exists y, fwd (Leaf (Upsample k 1)) x = Ok y /\ wf y /\ shape y = [b; c; h * k; w * k] /\
    forall q ch i j u v, q < b -> ch < c -> i < h -> j < w -> u < k -> v < k -> get n0 y [q; ch; i * k + u; j * k + v] = get n0 x [q; ch; i; j].
Proof. exact (fun K N => upsample_is). Qed.
Print Assumptions C49_upsample.
Theorem C49_flatten : forall (K : Type) (N : Num K) b s (x : tensor K), 0 < b -> shape x = b :: s -> fwd (Leaf Flatten) x = Ok (mkT [b; numel s] (data x)).
Proof. exact (fun K N => flatten_is). Qed.
Print Assumptions C49_flatten.
Theorem C49_reshape : forall (K : Type) (N : Num K) b s d (x : tensor K), 0 < b -> shape x = b :: s ->
  fwd (Leaf (Reshape (map Z.of_nat d))) x = if Nat.eq_dec (numel d) (numel s) then Ok (mkT (b :: d) (data x)) else Raise RuntimeError.
Proof. exact (fun K N => reshape_both). Qed.
Print Assumptions C49_reshape.
(** with a -1 among the sizes: the shape that fits, if there is one *)
Theorem C49_reshape_infer : forall (K : Type) (N : Num K) b s d (x : tensor K), 0 < b -> 0 < numel s -> shape x = b :: s ->
  (forall s', dims_match d s' = true -> numel s' = numel s -> fwd (Leaf (Reshape d)) x = Ok (mkT (b :: s') (data x))) /\
  ((forall s', dims_match d s' = true -> numel s' <> numel s) -> fwd (Leaf (Reshape d)) x = Raise RuntimeError).
Proof. exact (fun K N => reshape_infer). Qed.
Print Assumptions C49_reshape_infer.
Theorem C49_activation : forall a (x : tensor R), wf x ->
  exists y, fwd (Leaf (Act a)) x = Ok y /\ wf y /\ shape y = shape x /\
    forall idx, valid (shape x) idx -> let v := get 0%R x idx in get 0%R y idx =
      match a with
      | Tanh => ((exp v - exp (- v)) / (exp v + exp (- v)))%R
      | ReLU => Rmax 0 v
      | Sigmoid => (/ (1 + exp (- v)))%R
      | Sinusoidal => sin v
      | Softplus beta threshold => if Rlt_dec threshold (beta * v) then v else (ln (1 + exp (beta * v)) / beta)%R
      | TruncExp => exp v
      end.
Proof. exact act_is. Qed.
Print Assumptions C49_activation.
Theorem C49_l2norm : forall eps b s (x : tensor R), 0 < b -> wf x -> shape x = b :: s ->
  exists y, fwd (Leaf (L2Norm eps)) x = Ok y /\ wf y /\ shape y = b :: s /\
    forall q i, q < b -> i < numel s ->
      nth (q * numel s + i) (data y) 0%R =
      (nth (q * numel s + i) (data x) 0 / (sqrt (bsum (numel s) (fun j => nth (q * numel s + j) (data x) 0 * nth (q * numel s + j) (data x) 0)) + eps))%R.
Proof. exact l2_is. Qed.
Print Assumptions C49_l2norm.
(** Sequential composes its children in order, with or without hooks *)
Theorem C49_sequential : forall (K : Type) (N : Num K) h (m : module K) ms x,
  fwd (Seq h []) x = Ok x /\ fwd (Seq h (m :: ms)) x = (y <- fwd m x ;; fwd (Seq h ms) y).
Proof. exact (fun K N => seq_both). Qed.
Print Assumptions C49_sequential.
(** SkipConnection(F)(x) is x followed by F(x) along dimension 1 *)
Theorem C49_skip : forall (K : Type) (N : Num K) (F : module K) b c c' r x y,
  fwd F x = Ok y -> shape x = b :: c :: r -> shape y = b :: c' :: r ->
  exists z, fwd (Skip F) x = Ok z /\ wf z /\ shape z = b :: (c + c') :: r /\
    (forall q i idx, q < b -> i < c -> valid r idx -> get n0 z (q :: i :: idx) = get n0 x (q :: i :: idx)) /\
    (forall q i idx, q < b -> i < c' -> valid r idx -> get n0 z (q :: c + i :: idx) = get n0 y (q :: i :: idx)).
Proof. exact (fun K N => skip_is). Qed.
Print Assumptions C49_skip.
Theorem C49_skip_rejected : forall (K : Type) (N : Num K) (F : module K) b c c' r r' x y,
  fwd F x = Ok y -> shape x = b :: c :: r -> shape y = b :: c' :: r' -> r <> r' -> fwd (Skip F) x = Raise RuntimeError.
Proof. exact (fun K N => skip_bad). Qed.
Print Assumptions C49_skip_rejected.
(** a 3x3 image, 2x2 overlapping windows; a strided, padded, grouped convolution *)
Example C49_case_pool : pool_sized {| pk := (2, 2); ps := (1, 1); pp := (0, 0); pd := (1, 1); pceil := false |} [1; 3; 3] [1; 2; 2].
Proof.
  repeat split; try (cbn; auto with arith; fail).
  all: intros o Ho; destruct o as [|[|o]]; try discriminate; exfalso; apply (Nat.lt_irrefl 2); apply Nat.lt_le_trans with (2 := Ho); auto with arith.
Qed.
Example C49_case_conv : exists y,
  fwd (Leaf (Conv2d {| cstride := (2, 1); cpad := (1, 0); cdil := (1, 2); cgroups := 2; cmode := PZeros; cvmap := true |}
    (mkT [2; 1; 2; 2] [1; 2; 3; 4; 5; 6; 7; 8]%Z) (Some (mkT [2] [10; 20]%Z)))) (mkT [1; 2; 3; 3] (map Z.of_nat (seq 0 18))) = Ok y /\ shape y = [1; 2; 2; 1] /\ data y = [18; 73; 171; 405]%Z.
Proof. eexists. split; [vm_compute; reflexivity|]. split; vm_compute; reflexivity. Qed.
(** Reshape(2, -1) on samples with 6 entries; Reshape(4, -1) on them raises *)
Example C49_case_reshape : dims_match [2; -1]%Z [2; 3] = true /\ fwd (Leaf (Reshape [2; -1]%Z)) (mkT [1; 6] [1; 2; 3; 4; 5; 6]%Z) = Ok (mkT [1; 2; 3] [1; 2; 3; 4; 5; 6]%Z) /\
  fwd (Leaf (Reshape [4; -1]%Z)) (mkT [1; 6] [1; 2; 3; 4; 5; 6]%Z) = Raise RuntimeError.
Proof. repeat split; vm_compute; reflexivity. Qed.
