(** C70: networks as they are written, and what one accepted batch says about them. *)
From Coq Require Import String List Arith ZArith Bool Reals.
From Verif Require Import Scalar Sums Tensor Conv Abstract Simple Module Spec Domain FwdSpec Build BuildSpec BuildProofs BuildMain BuildLayers BuildWitness.
Import ListNotations.
Local Open Scope nat_scope.
Local Open Scope list_scope.

(** which expressions the constructors accept: exactly those with Conv2d of stride 1, integer padding and divisible channels, and
    without modules from elsewhere *)
Theorem C70_constructors : forall (K : Type) (N : Num K) (CR : CRing K) (e : expr K), (exists m, build e = Ok (Some m)) <-> legal e.
Proof. exact (fun K N CR e => build_legal e). Qed.
Print Assumptions C70_constructors.
Theorem C70_foreign : forall (K : Type) (N : Num K) (CR : CRing K) h (es : list (expr K)),
  (forall e, In e es -> exists o, build e = Ok o) -> In Foreign es ->
  build (ESeq h es) = Raise AttributeError /\ build (ESkip h es) = Raise AttributeError.
Proof. exact (fun K N CR h es => build_foreign h es). Qed.
Print Assumptions C70_foreign.
Example C70_rejected_case :
  build (conv_with 1 1 (One 2) (PadSize (One 0)) 1) = Raise ValueError /\ build (conv_with 1 1 (Two 1 2) (PadSize (One 0)) 1) = Raise ValueError /\
  build (conv_with 1 1 (One 1) (PadStr "same"%string) 1) = Raise TypeError /\ build (conv_with 1 1 (One 1) (PadStr "valid"%string) 1) = Raise TypeError /\
  build (conv_with 3 2 (One 1) (PadSize (One 0)) 2) = Raise ValueError /\
  build (ESeq true [ELinear 2 2 true wz wz; Foreign]) = Raise AttributeError.
Proof. exact rejected_cases. Qed.
(** the number of parameters is the one the arguments ask for *)
Theorem C70_parameters : forall (K : Type) (N : Num K) (CR : CRing K) (e : expr K) m, build e = Ok (Some m) -> n_params m = asked e.
Proof. exact (fun K N CR e m => build_asked e m). Qed.
Print Assumptions C70_parameters.
(** what is built: Sequential composes its layers, SkipConnection puts the input before their output, Linear and Conv2d (zero padding) are
    the affine maps with the given entries *)
Theorem C70_sequential : forall (K : Type) (N : Num K) (CR : CRing K) h (es : list (expr K)) m, build (ESeq h es) = Ok (Some m) ->
  exists ms, Forall2 (fun e m => build e = Ok (Some m)) es ms /\ forall x, fwd m x = fold_left (fun r m => y <- r ;; fwd m y) ms (Ok x).
Proof. exact (fun K N CR h es m => build_seq h es m). Qed.
Print Assumptions C70_sequential.
Theorem C70_skip : forall (K : Type) (N : Num K) (CR : CRing K) h (es : list (expr K)) m, build (ESkip h es) = Ok (Some m) ->
  exists q, build (ESeq h es) = Ok (Some q) /\ forall x, fwd m x = (y <- fwd q x ;; cat n0 1 [x; y]).
Proof. exact (fun K N CR h es m => build_skip h es m). Qed.
Print Assumptions C70_skip.
Theorem C70_linear : forall (K : Type) (N : Num K) (CR : CRing K) i o bias w v m b (x : tensor K),
  build (ELinear i o bias w v) = Ok (Some m) -> shape x = [b; i] ->
  fwd m x = Ok (tab2 b o (fun n k => nadd (bsum i (fun j => nmul (get n0 x [n; j]) (w [k; j]))) (if bias then v [k] else n0))).
Proof. exact (fun K N CR i o bias w v m b x => build_linear i o bias w v m b x). Qed.
Print Assumptions C70_linear.
Theorem C70_conv : forall (K : Type) (N : Num K) (CR : CRing K) a w v p m b c h wd (x y : tensor K),
  build (EConv a w v) = Ok (Some m) -> a_padding a = PadSize p -> a_mode a = PZeros -> shape x = [b; c; h; wd] -> fwd m x = Ok y ->
  exists h2 w2, shape y = [b; a_out a; h2; w2] /\
    h2 + fst (pair_of (a_dilation a)) * (fst (pair_of (a_kernel a)) - 1) = h + 2 * fst (pair_of p) /\
    w2 + snd (pair_of (a_dilation a)) * (snd (pair_of (a_kernel a)) - 1) = wd + 2 * snd (pair_of p) /\
    forall q o r t, q < b -> o < a_out a -> r < h2 -> t < w2 ->
      get n0 y [q; o; r; t] = nadd (bsum (a_in a / a_groups a) (fun i => bsum (fst (pair_of (a_kernel a))) (fun k => bsum (snd (pair_of (a_kernel a))) (fun l =>
        nmul (w [o; i; k; l]) (pixel x h wd q (o / (a_out a / a_groups a) * (a_in a / a_groups a) + i)
          (Z.of_nat (r + k * fst (pair_of (a_dilation a))) - Z.of_nat (fst (pair_of p)))
          (Z.of_nat (t + l * snd (pair_of (a_dilation a))) - Z.of_nat (snd (pair_of p)))))))) (if a_bias a then v [o] else n0).
Proof. exact (fun K N CR a w v p m b c h wd x y => build_conv a w v p m b c h wd x y). Qed.
Print Assumptions C70_conv.
Theorem C70_upsample : forall (K : Type) (N : Num K) (CR : CRing K) k m c h w b (x : tensor K),
  build (EUpsample k 1 : expr K) = Ok (Some m) -> 0 < k -> 0 < h -> 0 < w -> shape x = [b; c; h; w] ->
  exists y, fwd m x = Ok y /\ shape y = [b; c; h * k; w * k] /\
    forall q ch i j u v, q < b -> ch < c -> i < h -> j < w -> u < k -> v < k -> get n0 y [q; ch; i * k + u; j * k + v] = get n0 x [q; ch; i; j].
Proof. exact (fun K N CR k m c h w b x => build_upsample k m c h w b x). Qed.
Print Assumptions C70_upsample.
Theorem C70_reshape : forall (K : Type) (N : Num K) (CR : CRing K) b s d m (x : tensor K),
  build (EReshape d : expr K) = Ok (Some m) -> 0 < b -> 0 < numel s -> shape x = b :: s ->
  (forall s', dims_match d s' = true -> numel s' = numel s -> fwd m x = Ok (mkT (b :: s') (data x))) /\
  ((forall s', dims_match d s' = true -> numel s' <> numel s) -> fwd m x = Raise RuntimeError).
Proof. exact (fun K N CR b s d m x => build_reshape b s d m x). Qed.
Print Assumptions C70_reshape.
Theorem C70_flatten : forall (K : Type) (N : Num K) (CR : CRing K) b s m (x : tensor K),
  build (EFlatten : expr K) = Ok (Some m) -> 0 < b -> shape x = b :: s -> fwd m x = Ok (mkT [b; numel s] (data x)).
Proof. exact (fun K N CR b s m x => build_flatten b s m x). Qed.
Print Assumptions C70_flatten.
(** MaxPool2d: the stride is the kernel size unless given *)
Theorem C70_pool : forall k s p d ceil m b c h w (x y : tensor R),
  build (EPool k s p d ceil : expr R) = Ok (Some m) ->
  0 < b -> 0 < c -> 0 < h -> 0 < w -> wf x -> shape x = [b; c; h; w] -> fwd m x = Ok y ->
  let s := match s with Some s => s | None => k end in
  exists h2 w2, shape y = [b; c; h2; w2] /\
    (ceil = false ->
      (h2 - 1) * fst (pair_of s) + fst (pair_of d) * (fst (pair_of k) - 1) + 1 <= h + 2 * fst (pair_of p) /\
      h + 2 * fst (pair_of p) < h2 * fst (pair_of s) + fst (pair_of d) * (fst (pair_of k) - 1) + 1 /\
      (w2 - 1) * snd (pair_of s) + snd (pair_of d) * (snd (pair_of k) - 1) + 1 <= w + 2 * snd (pair_of p) /\
      w + 2 * snd (pair_of p) < w2 * snd (pair_of s) + snd (pair_of d) * (snd (pair_of k) - 1) + 1) /\
    forall q ch i j, q < b -> ch < c -> i < h2 -> j < w2 ->
      let inside r t := in_window h (fst (pair_of k)) (fst (pair_of s)) (fst (pair_of p)) (fst (pair_of d)) i r /\
                        in_window w (snd (pair_of k)) (snd (pair_of s)) (snd (pair_of p)) (snd (pair_of d)) j t in
      (forall r t, inside r t -> (get 0 x [q; ch; r; t] <= get 0 y [q; ch; i; j])%R) /\
      exists r t, inside r t /\ get 0%R y [q; ch; i; j] = get 0%R x [q; ch; r; t].
Proof. exact build_pool. Qed.
Print Assumptions C70_pool.
Theorem C70_activation : forall a m (x : tensor R),
  build (EAct a : expr R) = Ok (Some m) -> wf x ->
  exists y, fwd m x = Ok y /\ shape y = shape x /\
    forall idx, valid (shape x) idx -> let v := get 0%R x idx in get 0%R y idx =
      match a with
      | Tanh => ((exp v - exp (- v)) / (exp v + exp (- v)))%R
      | ReLU => Rmax 0 v
      | Sigmoid => (/ (1 + exp (- v)))%R
      | Sinusoidal => sin v
      | Softplus beta threshold => if Rlt_dec threshold (beta * v) then v else (ln (1 + exp (beta * v)) / beta)%R
      | TruncExp => exp v
      end.
Proof. exact build_act. Qed.
Print Assumptions C70_activation.
Theorem C70_l2norm : forall eps m b s (x : tensor R),
  build (EL2Norm eps : expr R) = Ok (Some m) -> 0 < b -> wf x -> shape x = b :: s ->
  exists y, fwd m x = Ok y /\ shape y = b :: s /\
    forall q i, q < b -> i < numel s ->
      nth (q * numel s + i) (data y) 0%R =
      (nth (q * numel s + i) (data x) 0 / (sqrt (bsum (numel s) (fun j => nth (q * numel s + j) (data x) 0 * nth (q * numel s + j) (data x) 0)) + eps))%R.
Proof. exact build_l2. Qed.
Print Assumptions C70_l2norm.
(** whether model(x) returns, with which shape or which exception, depends on the shape of x only *)
Theorem C70_shape_only : forall (K : Type) (N : Num K) (CR : CRing K) (m : module K) (x x' : tensor K),
  no_custom m -> shape x = shape x' -> same_outcome (fwd m x) (fwd m x').
Proof. exact (fun K N CR m x x' => same_forward m x x'). Qed.
Print Assumptions C70_shape_only.
(** one accepted batch: if model(x) returns, every other batch of samples of this shape is accepted, of any size *)
Theorem C70_batches : forall (K : Type) (N : Num K) (CR : CRing K) (e : expr K) m b s (x y : tensor K),
  plain e -> build e = Ok (Some m) -> 0 < b -> 0 < numel s -> wf x -> shape x = b :: s -> fits m x -> fwd m x = Ok y ->
  forall b' x', 0 < b' -> wf x' -> shape x' = b' :: s -> exists y', fwd m x' = Ok y' /\ shape y' = b' :: tl (shape y).
Proof. exact (fun K N CR e m b s x y P B Hb Hs Wx Sx => built_batches e m b s x P B Hb Hs Wx Sx y). Qed.
Print Assumptions C70_batches.
(** and vjp is there the product with jacobian *)
Theorem C70_products : forall (K : Type) (N : Num K) (CR : CRing K) (e : expr K) m b s (x y : tensor K),
  plain e -> build e = Ok (Some m) -> 0 < b -> 0 < numel s -> wf x -> shape x = b :: s -> fits m x -> fwd m x = Ok y ->
  forall b' (x' v : tensor K) h h', 0 < b' -> wf x' -> shape x' = b' :: s -> wf v -> shape v = [b'; numel (tl (shape y))] ->
  (exists J, snd (jacobian m h x' None Input) = Ok (Some J) /\ shape J = [b'; numel (tl (shape y)); numel s] /\
     snd (vjp m h' x' None v Input) = Ok (Some (vJ b' (numel (tl (shape y))) (numel s) (entry J) v))) /\
  (asked e <> 0 -> exists J, snd (jacobian m h x' None Weight) = Ok (Some J) /\ shape J = [b'; numel (tl (shape y)); asked e] /\
     snd (vjp m h' x' None v Weight) = Ok (Some (vJ b' (numel (tl (shape y))) (asked e) (entry J) v))).
Proof. exact (fun K N CR e m b s x y P B Hb Hs Wx Sx => built_products e m b s x P B Hb Hs Wx Sx y). Qed.
Print Assumptions C70_products.
(** the other properties: their hypothesis [typed] holds exactly when the forward pass returns and fits *)
Theorem C70_exact : forall (K : Type) (N : Num K) (CR : CRing K) (e : expr K) m b s (x : tensor K),
  plain e -> build e = Ok (Some m) -> 0 < b -> 0 < numel s -> wf x -> shape x = b :: s ->
  ((exists s', typed m s s') <-> fits m x /\ exists y, fwd m x = Ok y).
Proof. exact (fun K N CR e m b s x => built_exact e m b s x). Qed.
Print Assumptions C70_exact.
Example C70_case : plain written /\ legal written /\ asked written = 28 /\ exists m y,
  build written = Ok (Some m) /\ fits m image22 /\ fwd m image22 = Ok y /\ shape y = [1; 2].
Proof. exact written_case. Qed.
(** the settings matter: a Conv2d with dilation is built and applied, but has no product wrt weight *)
Example C70_settings_case : exists m (x y v : tensor Z) e,
  legal dilated /\ build dilated = Ok (Some m) /\ fits m x /\ fwd m x = Ok y /\ shape y = [1; 1; 1; 1] /\
  shape v = [1; 1] /\ snd (vjp m st0 x None v Weight) = Raise e.
Proof. exact dilated_case. Qed.
