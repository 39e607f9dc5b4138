(** C29, C30, C45 (Conv2d), C31 (MaxPool2d), C32, C46 (Upsample), C33 (custom layers).
    [h] is an arbitrary hidden state (whatever calls were made before). *)
From Coq Require Import List Arith ZArith Bool Lia Reals.
From Verif Require Import Scalar Sums Tensor Conv Abstract Simple LinearLayer ConvLayer PoolLayer Module Spec Domain LeafSpec ConvRaise ConvExact PoolExact LayerExact CustomIff ConvModes Examples LayerWitness.
Import ListNotations.
Local Open Scope nat_scope.
Local Open Scope list_scope.

(** C29: [is_conv_dx] and [is_conv_dw] write the derivatives of a convolution out by pixel coordinates *)
Theorem C29_conv_products : forall (K : Type) (N : Num K) (CR : CRing K) cfg (W : tensor K) bias c1 h1 w1 c2 h2 w2 b (x : tensor K),
  conv_ok cfg W bias [c1; h1; w1] [c2; h2; w2] -> 0 < b -> wf x -> shape x = [b; c1; h1; w1] ->
  let l := Leaf (Conv2d cfg W bias) in let m := c2 * h2 * w2 in let n := c1 * h1 * w1 in
  exists JX JW y : tensor K,
    wf JX /\ shape JX = [b; m; n] /\ is_conv_dx cfg W b c1 h1 w1 c2 h2 w2 JX /\
    wf JW /\ shape JW = [b; m; n_params l] /\ is_conv_dw cfg W x bias b c1 h1 w1 c2 h2 w2 JW /\
    fwd l x = Ok y /\
    forall (h : st K) val, val = None \/ val = Some y ->
      snd (jacobian l h x val Input) = Ok (Some JX) /\
      snd (jacobian l h x val Weight) = Ok (Some JW) /\
      (forall v, wf v -> shape v = [b; m] ->
         snd (vjp l h x val v Input) = Ok (Some (vJ b m n (entry JX) v)) /\
         snd (vjp l h x val v Weight) = Ok (Some (vJ b m (n_params l) (entry JW) v))) /\
      (forall r M, 0 < r -> wf M -> shape M = [b; r; m] ->
         snd (mjp l h x val (Some M) Input) = Ok (Some (MJ b r m n (entry JX) M)) /\
         snd (mjp l h x val (Some M) Weight) = Ok (Some (MJ b r m (n_params l) (entry JW) M))) /\
      (forall fd td M, wf M -> shape M = metric_shape fd b m ->
         snd (jTmjp l h x val (VT M) Input fd td false) = Ok (VT (pull b m n (entry JX) fd td M)) /\
         snd (jTmjp l h x val (VT M) Weight fd td false) = Ok (VT (pull b m (n_params l) (entry JW) fd td M))).
Proof. exact (fun K N CR cfg W bias c1 h1 w1 c2 h2 w2 b x T B Wx S => conv_exact cfg W bias c1 h1 w1 c2 h2 w2 b x T B Wx S). Qed.
Print Assumptions C29_conv_products.
(** the code path does not matter *)
Theorem C29_paths : forall (K : Type) (N : Num K) (CR : CRing K) cfg (W : tensor K) bias c1 h1 w1 c2 h2 w2 b (x y : tensor K),
  conv_ok cfg W bias [c1; h1; w1] [c2; h2; w2] -> 0 < b -> wf x -> shape x = [b; c1; h1; w1] -> conv_forward cfg W bias x = Ok y ->
  let la := Leaf (Conv2d (with_vmap cfg true) W bias) in let lb := Leaf (Conv2d (with_vmap cfg false) W bias) in
  forall (h : st K) val w, val = None \/ val = Some y ->
    jacobian la h x val w = jacobian lb h x val w /\
    (forall v, wf v -> shape v = [b; c2 * h2 * w2] -> vjp la h x val v w = vjp lb h x val v w) /\
    (forall r M, 0 < r -> wf M -> shape M = [b; r; c2 * h2 * w2] -> mjp la h x val (Some M) w = mjp lb h x val (Some M) w) /\
    (forall fd td db M, wf M -> shape M = metric_shape fd b (c2 * h2 * w2) -> jTmjp la h x val (VT M) w fd td db = jTmjp lb h x val (VT M) w fd td db).
Proof. exact (fun K N CR cfg W bias c1 h1 w1 c2 h2 w2 b x y T B Wx S F => conv_paths cfg W bias c1 h1 w1 c2 h2 w2 b x y T B Wx S F). Qed.
Print Assumptions C29_paths.
Example C29_case : exists t, conv_ok cfgL WL biasL [2; 3; 2] [3; 4; 4] /\ wf xL /\ shape xL = [2; 2; 3; 2] /\
  snd (vjp (Leaf (Conv2d cfgL WL biasL)) st0 xL None (mkT [2; 48] (map Z.of_nat (seq 0 96))) Weight) = Ok (Some t) /\
  shape t = [2; 39] /\ firstn 4 (data t) = [94; 87; 80; 66]%Z.
Proof. eexists. split; [exact convL_ok|]. split; [|split; [|split; [|split]]]; vm_compute; reflexivity. Qed.

(** C30 *)
Theorem C30_stride_rejected : forall cfg, cstride cfg <> (1, 1) -> conv_init_ok cfg = Raise ValueError.
Proof. exact stride_rejected. Qed.
Print Assumptions C30_stride_rejected.
(** whenever the constructor accepts the configuration and forward returns, with zero padding or no padding at all: either the
    configuration is unsupported and every weight product raises, or it is supported and every weight product is right *)
Theorem C30_weight_products : forall (K : Type) (N : Num K) (CR : CRing K) cfg (W : tensor K) bias c1 h1 w1 c2 h2 w2 b (x y : tensor K),
  conv_init_ok cfg = Ok tt -> cmode cfg = PZeros \/ cpad cfg = (0, 0) -> wf W -> match bias with Some t => wf t | None => True end ->
  0 < b -> wf x -> shape x = [b; c1; h1; w1] -> conv_forward cfg W bias x = Ok y -> shape y = [b; c2; h2; w2] ->
  let l := Leaf (Conv2d cfg W bias) in
  (~ supported cfg W c1 h1 w1 /\ forall (h : st K) val, val = None \/ val = Some y ->
      (exists e, snd (jacobian l h x val Weight) = Raise e) /\
      (forall v, exists e, snd (vjp l h x val v Weight) = Raise e) /\
      (forall r M, 0 < r -> nth_error (shape M) 1 = Some r -> exists e, snd (mjp l h x val (Some M) Weight) = Raise e) /\
      (forall fd td db M, exists e, snd (jTmjp l h x val (VT M) Weight fd td db) = Raise e)) \/
  (supported cfg W c1 h1 w1 /\ exists JW : tensor K, wf JW /\ shape JW = [b; c2 * h2 * w2; n_params l] /\ is_conv_dw cfg W x bias b c1 h1 w1 c2 h2 w2 JW /\
    forall (h : st K) val, val = None \/ val = Some y ->
      snd (jacobian l h x val Weight) = Ok (Some JW) /\
      (forall v, wf v -> shape v = [b; c2 * h2 * w2] ->
         snd (vjp l h x val v Weight) = Ok (Some (vJ b (c2 * h2 * w2) (n_params l) (entry JW) v))) /\
      (forall r M, 0 < r -> wf M -> shape M = [b; r; c2 * h2 * w2] ->
         snd (mjp l h x val (Some M) Weight) = Ok (Some (MJ b r (c2 * h2 * w2) (n_params l) (entry JW) M))) /\
      (forall fd td M, wf M -> shape M = metric_shape fd b (c2 * h2 * w2) ->
         snd (jTmjp l h x val (VT M) Weight fd td false) = Ok (VT (pull b (c2 * h2 * w2) (n_params l) (entry JW) fd td M)))).
Proof.
  exact (fun K N CR cfg W bias c1 h1 w1 c2 h2 w2 b x y I Mo WW Wb B Wx S F Sy =>
    conv_dichotomy cfg W bias c1 h1 w1 c2 h2 w2 b x y (init_stride cfg I) Mo WW Wb B Wx S F Sy).
Qed.
Print Assumptions C30_weight_products.
Example C30_case : supported (cfgM PZeros) WM 1 3 3 /\ exists y, fwd (Leaf (Conv2d (cfgM PZeros) WM None)) xM = Ok y /\ shape y = [1; 1; 4; 4].
Proof. split; [exact supportedM|]. eexists. split; vm_compute; reflexivity. Qed.
Example C30_raise_case : exists y, fwd (Leaf (Conv2d (conv_cfg_of (0, 0) (2, 2) 1 PZeros true) WM None)) xM = Ok y /\ shape y = [1; 1; 1; 1] /\
  ~ supported (conv_cfg_of (0, 0) (2, 2) 1 PZeros true) WM 1 3 3 /\
  snd (vjp (Leaf (Conv2d (conv_cfg_of (0, 0) (2, 2) 1 PZeros true) WM None)) st0 xM None (tz [1; 1] [1]%Z) Weight) = Raise RuntimeError.
Proof. exact dilated_raises. Qed.

(** C45, full claim: for every padding mode the backward products are the derivatives of forward, or raise.  It fails for
    circular, replicate and reflect padding: without bias the layer is linear in the kernel and in the input, so <v, forward>
    should equal <vjp v, kernel> and <vjp v, input>. *)
Theorem C45_refuted_modes : forall mode, mode <> PZeros -> exists (cfg : conv_cfg) (W x y v u u' : tensor Z),
  cmode cfg = mode /\ conv_init_ok cfg = Ok tt /\ fwd (Leaf (Conv2d cfg W None)) x = Ok y /\ length (data v) = length (data y) /\
  snd (vjp (Leaf (Conv2d cfg W None)) st0 x None v Weight) = Ok (Some u) /\ length (data u) = length (data W) /\ dotz v y <> dotz u W /\
  snd (vjp (Leaf (Conv2d cfg W None)) st0 x None v Input) = Ok (Some u') /\ length (data u') = length (data x) /\ dotz v y <> dotz u' x.
Proof. exact modes_wrong. Qed.
Print Assumptions C45_refuted_modes.
Example C45_zeros_case : exists (y u u' : tensor Z),
  fwd (Leaf (Conv2d (cfgM PZeros) WM None)) xM = Ok y /\ snd (vjp (Leaf (Conv2d (cfgM PZeros) WM None)) st0 xM None vM Weight) = Ok (Some u) /\
  snd (vjp (Leaf (Conv2d (cfgM PZeros) WM None)) st0 xM None vM Input) = Ok (Some u') /\ dotz vM y = dotz u WM /\ dotz vM y = dotz u' xM /\ dotz vM y <> 0%Z.
Proof. exact zeros_right. Qed.

(** C45: with any padding mode every product is the one of the same layer with zero padding *)
Theorem C45_like_zeros : forall (K : Type) (N : Num K) (CR : CRing K) cfg (W : tensor K) bias (x y : tensor K),
  fwd (Leaf (Conv2d cfg W bias)) x = Ok y ->
  exists y0, fwd (Leaf (Conv2d (zeros_mode cfg) W bias)) x = Ok y0 /\ shape y0 = shape y /\
  forall val (h : st K) w, let l := Leaf (Conv2d cfg W bias) in let l0 := Leaf (Conv2d (zeros_mode cfg) W bias) in
    jacobian l h x val w = jacobian l0 h x val w /\
    (forall u, vjp l h x val u w = vjp l0 h x val u w) /\
    (forall M, mjp l h x val M w = mjp l0 h x val M w) /\
    (forall M fd td db, jTmjp l h x val M w fd td db = jTmjp l0 h x val M w fd td db) /\
    (forall u, jvp l h x val u w = jvp l0 h x val u w) /\
    (forall M, jmp l h x val M w = jmp l0 h x val M w) /\
    (forall M fd td db, jmjTp l h x val M w fd td db = jmjTp l0 h x val M w fd td db).
Proof. exact (fun K N CR => modes_like_zeros). Qed.
Print Assumptions C45_like_zeros.
(** C45: the input jacobian gives every increment of forward exactly when the kernel entries that read any pixel through the
    padding sum to zero, and the weight jacobian exactly when the padding of this input shows zeros only.  Forward is affine
    in the input and in the parameters, so the increments are the derivative. *)
Theorem C45_exact : forall (K : Type) (N : Num K) (CR : CRing K) cfg (W : tensor K) bias c1 h1 w1 c2 h2 w2 b (x y : tensor K),
  conv_ok (zeros_mode cfg) W bias [c1; h1; w1] [c2; h2; w2] -> 0 < b -> wf x -> shape x = [b; c1; h1; w1] ->
  fwd (Leaf (Conv2d cfg W bias)) x = Ok y ->
  let n := c1 * h1 * w1 in let m := c2 * h2 * w2 in let np := n_params (Leaf (Conv2d cfg W bias)) in
  exists JX JW : tensor K, (forall h : st K, snd (jacobian (Leaf (Conv2d cfg W bias)) h x None Input) = Ok (Some JX) /\
      snd (jacobian (Leaf (Conv2d cfg W bias)) h x None Weight) = Ok (Some JW)) /\
    ((forall z, wf z -> shape z = shape x -> exists yz, fwd (Leaf (Conv2d cfg W bias)) z = Ok yz /\
        forall q i, q < b -> i < m -> nth (q * m + i) (data yz) n0 = nadd (nth (q * m + i) (data y) n0)
          (bsum n (fun j => nmul (entry JX q i j) (nsub (nth (q * n + j) (data z) n0) (nth (q * n + j) (data x) n0))))) <->
     (forall o y2 z2 c y1 z1, o < c2 -> y2 < h2 -> z2 < w2 -> c < c1 -> y1 < h1 -> z1 < w1 -> padded_taps cfg W h1 w1 o y2 z2 c y1 z1 = n0)) /\
    ((forall W' bias', wf W' -> shape W' = shape W -> bias_ok bias' c2 -> (bias = None <-> bias' = None) ->
        exists y', fwd (Leaf (Conv2d cfg W' bias')) x = Ok y' /\
        forall q i, q < b -> i < m -> nth (q * m + i) (data y') n0 = nadd (nth (q * m + i) (data y) n0)
          (bsum np (fun p => nmul (entry JW q i p) (nsub (nth p (params_of W' bias') n0) (nth p (params_of W bias) n0))))) <->
     (forall q c i j, q < b -> c < c1 -> i < h1 + 2 * fst (cpad cfg) -> j < w1 + 2 * snd (cpad cfg) ->
        inside h1 (fst (cpad cfg)) i && inside w1 (snd (cpad cfg)) j = false ->
        pget (cmode cfg) x h1 w1 (fst (cpad cfg)) (snd (cpad cfg)) q c i j = n0)).
Proof. exact (fun K N CR => modes_exact). Qed.
Print Assumptions C45_exact.
(** circular padding, 3 x 3 kernels: both conditions hold for some layers and images and fail for others *)
Example C45_case : (forall W, W = W_mid \/ W = W_edge -> conv_ok (zeros_mode cfg_circ) W None [1; 3; 3] [1; 3; 3]) /\
  (exists y, fwd (Leaf (Conv2d cfg_circ W_edge None)) x_edge = Ok y) /\
  (forall o y z c y1 z1, o < 1 -> y < 3 -> z < 3 -> c < 1 -> y1 < 3 -> z1 < 3 -> padded_taps cfg_circ W_mid 3 3 o y z c y1 z1 = 0%Z) /\
  padded_taps cfg_circ W_edge 3 3 0 0 0 0 0 2 = 3%Z /\
  (forall q c i j, q < 1 -> c < 1 -> i < 3 + 2 * 1 -> j < 3 + 2 * 1 -> inside 3 1 i && inside 3 1 j = false -> pget PCircular x_mid 3 3 1 1 q c i j = 0%Z) /\
  pget PCircular x_edge 3 3 1 1 0 0 2 0 = 7%Z.
Proof. split; [exact circ_ok|]. split; [eexists; vm_compute; reflexivity|]. destruct circ_cases as (A & B & C & D & _). auto. Qed.

(** C31, full claim: vjp, mjp and jTmjp are the products with jacobian, for every kernel, stride, padding and dilation.  They are
    exactly when no input entry is the maximum of two windows. *)
Theorem C31_pool_partial : forall (K : Type) (N : Num K) (CR : CRing K), (n1 : K) <> n0 -> forall cfg s s' b (x : tensor K),
  pool_sized cfg s s' -> 0 < b -> wf x -> shape x = b :: s ->
  exists J : tensor K, wf J /\ shape J = [b; numel s'; numel s] /\
    (forall h, snd (jacobian (MaxPool cfg) h x None Input) = Ok (Some J)) /\
    (forall q i, q < b -> i < numel s' -> exists j, j < numel s /\ forall j', j' < numel s -> entry J q i j' = delta j j') /\
    (exists y, fwd (MaxPool cfg) x = Ok y /\ wf y /\ shape y = b :: s' /\
       forall q i, q < b -> i < numel s' ->
         nth (q * numel s' + i) (data y) n0 = bsum (numel s) (fun j => nmul (entry J q i j) (nth (q * numel s + j) (data x) n0))) /\
    (no_double b (numel s') (numel s) J ->
      (forall h v, wf v -> shape v = [b; numel s'] ->
         snd (vjp (MaxPool cfg) h x None v Input) = Ok (Some (vJ b (numel s') (numel s) (entry J) v))) /\
      (forall h r M, 0 < r -> wf M -> shape M = [b; r; numel s'] ->
         snd (mjp (MaxPool cfg) h x None (Some M) Input) = Ok (Some (MJ b r (numel s') (numel s) (entry J) M))) /\
      (forall h fd td db M, wf M -> shape M = metric_shape fd b (numel s') ->
         snd (jTmjp (MaxPool cfg) h x None (VT M) Input fd td db) = Ok (VT (pull b (numel s') (numel s) (entry J) fd td M)))) /\
    ((forall h v, wf v -> shape v = [b; numel s'] ->
         snd (vjp (MaxPool cfg) h x None v Input) = Ok (Some (vJ b (numel s') (numel s) (entry J) v))) ->
      no_double b (numel s') (numel s) J).
Proof. exact (fun K N CR One cfg s s' b x T B Wx S => pool_jac_any One cfg s s' b x T B Wx S). Qed.
Print Assumptions C31_pool_partial.
Example C31_case : pool_sized poolO [1; 1; 3] [1; 1; 2] /\
  exists J, snd (jacobian (MaxPool poolO) st0 xO' None Input) = Ok (Some J) /\ no_double 1 2 3 J /\ data J = [1; 0; 0; 0; 0; 1]%Z.
Proof. split; [exact poolO_sized|exact poolO_good]. Qed.
Theorem C31_refuted_overlap : exists (cfg : pool_cfg) s s' (x J t t2 t3 : tensor Z), pool_sized cfg s s' /\ wf x /\ shape x = 1 :: s /\
  snd (jacobian (MaxPool cfg) st0 x None Input) = Ok (Some J) /\
  let v := tz [1; 2] [1; 1]%Z in let M := tz [1; 1; 2] [1; 1]%Z in let G := tz [1; 2; 2] [1; 0; 0; 1]%Z in
  snd (vjp (MaxPool cfg) st0 x None v Input) = Ok (Some t) /\ t <> vJ 1 2 3 (entry J) v /\
  snd (mjp (MaxPool cfg) st0 x None (Some M) Input) = Ok (Some t2) /\ t2 <> MJ 1 1 2 3 (entry J) M /\
  snd (jTmjp (MaxPool cfg) st0 x None (VT G) Input false false false) = Ok (VT t3) /\ t3 <> pull 1 2 3 (entry J) false false G.
Proof. exact pool_overlap. Qed.
Print Assumptions C31_refuted_overlap.

(** C32: scale factor k, written as the fraction (k * sd) / sd; [is_up_dx] writes the derivative out by pixel coordinates *)
Theorem C32_upsample_products : forall (K : Type) (N : Num K) (CR : CRing K) k sd c h w b (x : tensor K),
  0 < k -> 0 < sd -> 0 < c -> 0 < h -> 0 < w -> 0 < b -> wf x -> shape x = [b; c; h; w] ->
  let l := Leaf (Upsample (k * sd) sd) in let m := c * (h * k) * (w * k) in let n := c * h * w in
  exists J y : tensor K, wf J /\ shape J = [b; m; n] /\ is_up_dx k b c h w J /\
    fwd l x = Ok y /\ shape y = [b; c; h * k; w * k] /\
    (forall q o i j, q < b -> o < c -> i < h * k -> j < w * k -> get n0 y [q; o; i; j] = get n0 x [q; o; i / k; j / k]) /\
    forall (s : st K) val, val = None \/ val = Some y ->
      snd (jacobian l s x val Input) = Ok (Some J) /\ snd (jacobian l s x val Weight) = Ok None /\
      (forall v, wf v -> shape v = [b; m] ->
         snd (vjp l s x val v Input) = Ok (Some (vJ b m n (entry J) v)) /\ snd (vjp l s x val v Weight) = Ok None) /\
      (forall r M, 0 < r -> wf M -> shape M = [b; r; m] ->
         snd (mjp l s x val (Some M) Input) = Ok (Some (MJ b r m n (entry J) M)) /\ snd (mjp l s x val (Some M) Weight) = Ok None) /\
      (forall fd td M, wf M -> shape M = metric_shape fd b m ->
         snd (jTmjp l s x val (VT M) Input fd td false) = Ok (VT (pull b m n (entry J) fd td M)) /\
         snd (jTmjp l s x val (VT M) Weight fd td false) = Ok VNone).
Proof. exact (fun K N CR k sd c h w b x Hk Hs Hc Hh Hw Hb Wx Sx => up_exact k sd c h w b x Hk Hs Hc Hh Hw Hb Wx Sx). Qed.
Print Assumptions C32_upsample_products.
Example C32_case : exists (y u : tensor Z),
  fwd (Leaf (Upsample 4 2)) (tz [1; 1; 2; 2] [1; 2; 3; 4]%Z) = Ok y /\ shape y = [1; 1; 4; 4] /\
  snd (vjp (Leaf (Upsample 4 2)) st0 (tz [1; 1; 2; 2] [1; 2; 3; 4]%Z) None (mkT [1; 16] (map Z.of_nat (seq 1 16))) Input) = Ok (Some u) /\
  data u = [14; 22; 46; 54]%Z /\ dotz (mkT [1; 16] (map Z.of_nat (seq 1 16))) y = dotz u (tz [1; 1; 2; 2] [1; 2; 3; 4]%Z).
Proof. exact integer_right. Qed.
(** C46, full claim: the same for every scale factor, or an exception.  It fails for 5/2: forward is linear, so <v, forward>
    should equal <vjp v, input>. *)
Theorem C46_refuted_fractional : exists (x y v u : tensor Z),
  fwd (Leaf (Upsample 5 2)) x = Ok y /\ shape y = [1; 1; 5; 5] /\ shape v = [1; 25] /\
  snd (vjp (Leaf (Upsample 5 2)) st0 x None v Input) = Ok (Some u) /\ shape u = [1; 4] /\ dotz v y <> dotz u x.
Proof. exact fractional_wrong. Qed.
Print Assumptions C46_refuted_fractional.

(** C33: at any input, with any val and wrt for which the layer's jacobian returns J *)
Theorem C33_products : forall (K : Type) (N : Num K) (CR : CRing K) (cu : custom K) x val w (J : tensor K) b m n (h : st K),
  cu_jacobian cu x val w = Ok (Some J) -> shape J = [b; m; n] ->
  let l := Leaf (Custom cu) in
  snd (jacobian l h x val w) = Ok (Some J) /\
  (forall v, shape v = [b; n] -> snd (jvp l h x val v w) = Ok (Some (Jv b m n (entry J) v))) /\
  (forall c M, shape M = [b; n; c] -> snd (jmp l h x val (Some M) w) = Ok (Some (JM b m n c (entry J) M))) /\
  (forall v, shape v = [b; m] -> snd (vjp l h x val v w) = Ok (Some (vJ b m n (entry J) v))) /\
  (forall r M, shape M = [b; r; m] -> snd (mjp l h x val (Some M) w) = Ok (Some (MJ b r m n (entry J) M))) /\
  (forall fd td db M, flags_ok fd td db -> shape M = metric_shape fd b n ->
     snd (jmjTp l h x val (VT M) w fd td db) = Ok (VT (push b m n (entry J) fd td M))) /\
  (forall M, shape M = [b; m; m] -> snd (jTmjp l h x val (VT M) w false false false) = Ok (VT (pull b m n (entry J) false false M))).
Proof. exact (fun K N CR cu x val w J b m n h E S => custom_exact cu x val w J b m n h E S). Qed.
Print Assumptions C33_products.
(** the other three modes of jTmjp: full claim for every jacobian, proved for symmetric ones (the layer alone here, any
    nesting in C07 and C08) *)
Theorem C33_jTmjp_partial : forall (K : Type) (N : Num K) (CR : CRing K) (cu : custom K) x val w (J : tensor K) b n (h : st K),
  cu_jacobian cu x val w = Ok (Some J) -> shape J = [b; n; n] ->
  (forall q i j, q < b -> i < n -> j < n -> entry J q i j = entry J q j i) ->
  forall fd td db M, flags_ok fd td db -> shape M = metric_shape fd b n ->
    snd (jTmjp (Leaf (Custom cu)) h x val (VT M) w fd td db) = Ok (VT (pull b n n (entry J) fd td M)).
Proof. exact (fun K N CR cu x val w J b n h E S Sy => custom_sym_exact cu x val w J b n h E S Sy). Qed.
Print Assumptions C33_jTmjp_partial.
(** for every square jacobian those three modes compute J M J *)
Theorem C33_jTmjp_modes : forall (K : Type) (N : Num K) (CR : CRing K) (cu : custom K) x val w (J : tensor K) b n (h : st K),
  cu_jacobian cu x val w = Ok (Some J) -> shape J = [b; n; n] ->
  forall fd td db M, flags_ok fd td db -> fd || td = true -> shape M = metric_shape fd b n ->
    snd (jTmjp (Leaf (Custom cu)) h x val (VT M) w fd td db) = Ok (VT (sandwich b n (entry J) fd td M)).
Proof. exact (fun K N CR cu x val w J b n h E S => custom_diag_modes cu x val w J b n h E S). Qed.
Print Assumptions C33_jTmjp_modes.
(** so each of these modes is right for every M exactly when the jacobian is symmetric (over any carrier without zero divisors) *)
Theorem C33_exact_modes : forall (K : Type) (N : Num K) (CR : CRing K),
  (forall a c : K, a = c \/ a <> c) -> (forall a c : K, nmul a c = n0 -> a = n0 \/ c = n0) ->
  forall (cu : custom K) x val w (J : tensor K) b n (h : st K),
  cu_jacobian cu x val w = Ok (Some J) -> shape J = [b; n; n] ->
  forall fd td db, flags_ok fd td db -> fd || td = true ->
  ((forall M, shape M = metric_shape fd b n ->
      snd (jTmjp (Leaf (Custom cu)) h x val (VT M) w fd td db) = Ok (VT (pull b n n (entry J) fd td M))) <->
   forall q i j, q < b -> i < n -> j < n -> entry J q i j = entry J q j i).
Proof. exact (fun K N CR D I cu x val w J b n h => custom_modes_iff D I cu x val w J b n h). Qed.
Print Assumptions C33_exact_modes.
Example C33_case_domain : (forall a c : R, a = c \/ a <> c) /\ (forall a c : R, nmul a c = n0 -> a = n0 \/ c = n0) /\
  (forall a c : Z, a = c \/ a <> c) /\ (forall a c : Z, nmul a c = n0 -> a = n0 \/ c = n0).
Proof.
  split; [exact (fun a c => Req_dec a c)|]. split; [exact (fun a c => Rmult_integral a c)|].
  split; [intros a c; destruct (Z.eq_dec a c); auto|exact (fun a c => proj1 (Z.mul_eq_0 a c))].
Qed.
Theorem C33_refuted_transpose : exists (c : custom Z) (x J : tensor Z), custom_ok c [2] [2] /\ wf x /\ shape x = [1; 2] /\
  cu_jacobian c x None Input = Ok (Some J) /\ shape J = [1; 2; 2] /\
  forall fd td, fd || td = true -> exists M t t', shape M = metric_shape fd 1 2 /\
    snd (jTmjp (Leaf (Custom c)) st0 x None (VT M) Input fd td false) = Ok (VT t) /\ t <> pull 1 2 2 (entry J) fd td M /\
    snd (jTmjp (Seq true [Leaf (Custom c)]) st0 x None (VT M) Input fd td false) = Ok (VT t') /\ t' <> pull 1 2 2 (entry J) fd td M.
Proof. exact shear_wrong. Qed.
Print Assumptions C33_refuted_transpose.
Example C33_case : exists J t, cu_jacobian shear (tz [1; 2] [3; 4]%Z) None Input = Ok (Some J) /\ shape J = [1; 2; 2] /\
  snd (jTmjp (Leaf (Custom shear)) st0 (tz [1; 2] [3; 4]%Z) None (VT (tz [1; 2; 2] [1; 2; 3; 4]%Z)) Input false false false) = Ok (VT t) /\ data t = [1; 3; 4; 10]%Z.
Proof. do 2 eexists. repeat split; vm_compute; reflexivity. Qed.
