(** C68: one image without a batch dimension. *)
From Coq Require Import List Arith ZArith.
From Verif Require Import Scalar Tensor Conv Abstract Simple ConvLayer Module Domain Calls TreeBase Fwd ImgSpec ImgProofs ImgWeight ImgWitness.
Import ListNotations.
Local Open Scope nat_scope.
Local Open Scope list_scope.

(** wanted: model(image) is model(image[None])[0], or raises.  True, also for the exceptions, of networks of convolutions, pooling
    layers and activations, nested in any way *)
Theorem C68_forward_partial : forall (K : Type) (N : Num K) (CR : CRing K) (m : module K) (x : tensor K),
  image_net m -> length (shape x) = 3 -> fwd m x = (y <- fwd m (unsqueeze0 x) ;; Ok (squeeze0 y)).
Proof. exact (fun K N CR m x I L => proj1 (image_forward m x I L)). Qed.
Print Assumptions C68_forward_partial.
Example C68_forward_case : image_net image_example /\ fwd image_example img = Ok (mkT [1; 1; 2] [0; 0]%Z) /\
  fwd image_example (unsqueeze0 (mkT [2; 1; 2] [5; 2; 3; 4]%Z)) = Ok (mkT [1; 1; 1; 2] [2; 0]%Z) /\
  fwd image_example (mkT [2; 1; 2] [5; 2; 3; 4]%Z) = Ok (mkT [1; 1; 2] [2; 0]%Z).
Proof. exact image_case. Qed.
(** what the other layers compute on an image: Upsample makes it wider but not higher *)
Theorem C68_upsample : forall (K : Type) (N : Num K) (CR : CRing K) k c h w (x : tensor K), 0 < k -> 0 < w -> shape x = [c; h; w] ->
  exists y, fwd (Leaf (Upsample k 1)) x = Ok y /\ shape y = [c; h; w * k] /\
    forall ch i j u, ch < c -> i < h -> j < w -> u < k -> get n0 y [ch; i; j * k + u] = get n0 x [ch; i; j].
Proof. exact (fun K N CR k c h w x => up_image k c h w x). Qed.
Print Assumptions C68_upsample.
(** SkipConnection stacks the two images on top of each other instead of their channels *)
Theorem C68_skip : forall (K : Type) (N : Num K) (CR : CRing K) (F : module K) c h w (x y t : tensor K),
  shape x = [c; h; w] -> fwd F x = Ok y -> fwd (Skip F) x = Ok t -> exists h', shape y = [c; h'; w] /\ shape t = [c; h + h'; w].
Proof. exact (fun K N CR F c h w x y t => skip_image F c h w x y t). Qed.
Print Assumptions C68_skip.
(** Flatten keeps the channels apart *)
Theorem C68_flatten : forall (K : Type) (N : Num K) (CR : CRing K) c h w (x : tensor K), 0 < c -> shape x = c :: [h; w] ->
  fwd (Leaf Flatten) x = Ok (mkT [c; numel [h; w]] (data x)).
Proof. exact (fun K N CR c h w x => flatten_is c [h; w] x). Qed.
Print Assumptions C68_flatten.
(** so that the wanted equation is false: both calls return, with different results *)
Theorem C68_refuted : forall m, In m [Seq true [Leaf (Upsample 2 1)]; Skip (Seq true [Leaf (Act ReLU)]); Seq true [Leaf Flatten]] ->
  exists y y' : tensor Z, fwd m (mkT [2; 1; 2] [1; 2; 3; 4]%Z) = Ok y /\ fwd m (unsqueeze0 (mkT [2; 1; 2] [1; 2; 3; 4]%Z)) = Ok y' /\ y <> squeeze0 y'.
Proof. exact different. Qed.
Print Assumptions C68_refuted.
(** products: when a convolution, a pooling or an up-sampling layer is given a tensor that is not a batch of images, at any depth of the
    network, every product wrt input raises, in every state and whatever the other arguments *)
Theorem C68_input : forall (K : Type) (N : Num K) (CR : CRing K) (m : module K) h (x : tensor K) c,
  meets m x -> is_product c -> point c = x -> given_val c = None -> wrt_of c = Input -> exists e, answer m h c = Raise e.
Proof. exact (fun K N CR m h x c => input_fails m h x c). Qed.
Print Assumptions C68_input.
(** and so does every reverse product wrt weight, after any history of calls, unless the layer sees the input itself and has no
    parameters *)
Theorem C68_weight_partial : forall (K : Type) (N : Num K) (CR : CRing K) (m : module K) hist (x : tensor K) c,
  meets_late m x -> backward c = true -> point c = x -> given_val c = None -> wrt_of c = Weight ->
  exists e, answer m (run m (init m) hist) c = Raise e.
Proof. exact (fun K N CR m hist x c => weight_fails m hist x c). Qed.
Print Assumptions C68_weight_partial.
Example C68_case : meets image_example img /\ meets_late image_example img /\
  snd (vjp image_example (init image_example) img None (mkT [1; 2] [1; 1]%Z) Input) = Raise ValueError /\
  meets (Seq true [Leaf (Act ReLU); Leaf (Upsample 2 1)]) img.
Proof. exact meets_case. Qed.
Example C68_weight_case : meets_late (Seq true [Leaf (Act ReLU); MaxPool pool11]) img.
Proof. exact late_pool_case. Qed.
(** in that case it answers: MaxPool2d - Flatten - Linear takes the channels for samples *)
Theorem C68_weight_refuted : exists (m : module Z) (x v y g : tensor Z), meets m x /\ shape x = [2; 1; 2] /\ fwd m x = Ok y /\ shape y = [2; 1] /\
  snd (vjp m (init m) x None v Weight) = Ok (Some g) /\ shape g = [2; n_params m].
Proof. exact rows_per_channel. Qed.
Print Assumptions C68_weight_refuted.
