(** Model of the worked example UNet.ipynb: the network, the training step, the Laplace approximation
    and the sampled predictions. *)
From Coq Require Import String Ascii List Arith ZArith Lia Bool.
From Verif Require Import Scalar Tensor Conv Abstract Simple LinearLayer ConvLayer PoolLayer Module LogLik Utils.
Import ListNotations.
Local Open Scope nat_scope.
Local Open Scope list_scope.

Section Notebook.
  Context {K} `{Num K}.
  Notation T := (tensor K).

  (** nnj.Conv2d(i, o, 3, stride=1, padding=1) and nnj.Conv2d(i, o, 1, stride=1, padding=0): the k-th
      convolution of the network, with its weight and bias (conv2d.py:14-42) *)
  Definition conv3 (P : nat -> T * T) (k : nat) : module K :=
    Leaf (Conv2d {| cstride := (1, 1); cpad := (1, 1); cdil := (1, 1); cgroups := 1; cmode := PZeros; cvmap := true |}
            (fst (P k)) (Some (snd (P k)))).
  Definition conv1 (P : nat -> T * T) (k : nat) : module K :=
    Leaf (Conv2d default_conv (fst (P k)) (Some (snd (P k)))).
  (** nnj.Tanh(), nnj.MaxPool2d(2), nnj.Upsample(scale_factor=2) *)
  Definition tanh_layer : module K := Leaf (Act Tanh).
  Definition pool2 : module K := MaxPool (default_pool (2, 2)).
  Definition up2 : module K := Leaf (Upsample 2 1).

  (** UNet.ipynb, section Model: the convolutions are numbered in the order in which they appear *)
  Definition unet (P : nat -> T * T) : module K :=
    Seq true
      [conv3 P 0; tanh_layer; conv3 P 1; tanh_layer;
       Skip (Seq true
         [pool2; conv3 P 2; tanh_layer; conv3 P 3; tanh_layer;
          Skip (Seq true
            [pool2; conv3 P 4; tanh_layer; conv3 P 5; tanh_layer;
             Skip (Seq true
               [pool2; conv3 P 6; tanh_layer; conv3 P 7; tanh_layer;
                Skip (Seq true
                  [pool2; conv3 P 8; tanh_layer; conv3 P 9; tanh_layer; up2]);
                conv3 P 10; tanh_layer; conv3 P 11; tanh_layer; up2]);
             conv3 P 12; tanh_layer; conv3 P 13; tanh_layer; up2]);
          conv3 P 14; tanh_layer; conv3 P 15; tanh_layer; up2]);
       conv3 P 16; tanh_layer; conv3 P 17; tanh_layer; conv1 P 18].
  (** input channels, output channels and kernel size of each convolution; the notebook has c = 64 *)
  Definition unet_table (c : nat) : list (nat * nat * nat) :=
    [(1, c, 3); (c, c, 3); (c, 2 * c, 3); (2 * c, 2 * c, 3); (2 * c, 4 * c, 3); (4 * c, 4 * c, 3);
     (4 * c, 8 * c, 3); (8 * c, 8 * c, 3); (8 * c, 16 * c, 3); (16 * c, 8 * c, 3);
     (16 * c, 8 * c, 3); (8 * c, 4 * c, 3); (8 * c, 4 * c, 3); (4 * c, 2 * c, 3);
     (4 * c, 2 * c, 3); (2 * c, c, 3); (2 * c, c, 3); (c, c, 3); (c, 1, 1)].

  (** (x > 0).float() *)
  Definition positive (x : T) : T := emap (fun v => if nltb n0 v then n1 else n0) x.

  (** one step of the training loop (UNet.ipynb, section Model, second cell):
      val = UNet(x); residual = target - val;
      gradient = UNet.vjp(x, val, residual.reshape(batch_size, -1), wrt="weight").sum(dim=0);
      UNet.set_weight(UNet.get_weight() + gradient).
      The model is returned as it is after the call, also when the call raises. *)
  Definition train_step (m : module K) (s : st K) (x target : T) : module K * st K * res unit :=
    match size 0 x with
    | Raise e => (m, s, Raise e)
    | Ok b =>
        let '(s, r) := forward m s x in
        match (val <- r ;; rs <- tsub target val ;; rs <- flat b rs ;; Ok (val, rs)) with
        | Raise e => (m, s, Raise e)
        | Ok (val, rs) =>
            let '(s, r) := vjp m s x (Some val) rs Weight in
            match (g <- r ;; g <- need g ;; w <- get_weight m ;; tadd w (sum0 g)) with
            | Raise e => (m, s, Raise e)
            | Ok w => let '(m, r) := set_weight m w in (m, s, r)
            end
        end
    end.

  (** section Laplace Approximation:
      parameter_precision = UNet.jTmjp(x, None, None, wrt="weight", from_diag=True, to_diag=True,
      diag_backprop=True).sum(dim=0) + torch.ones(UNet._n_params); parameter_covariance = 1.0 /
      parameter_precision; parameter_std = parameter_covariance**0.5.  Returned: precision and std. *)
  Definition laplace (m : module K) (s : st K) (x : T) : st K * res (T * T) :=
    let '(s, r) := jTmjp m s x None VNone Weight true true true in
    (s, v <- r ;; t <- to_tensor v ;; p <- tadd (sum0 t) (ones [n_params m]) ;;
        Ok (p, emap nsqrt (emap (ndiv n1) p))).

  (** one sampled prediction: UNet.set_weight(parameter_std * eps); val = UNet(x) *)
  Definition sample_prediction (m : module K) (s : st K) (std eps x : T) : module K * st K * res T :=
    match tmul std eps with
    | Raise e => (m, s, Raise e)
    | Ok w =>
        let '(m, r) := set_weight m w in
        match r with
        | Raise e => (m, s, Raise e)
        | Ok _ => let '(s, r) := forward m s x in (m, s, r)
        end
    end.
End Notebook.

(** the parameters have the shapes that the constructors of the notebook give them *)
Definition unet_sized {K} (c : nat) (P : nat -> tensor K * tensor K) : Prop :=
  forall k i o ks, nth_error (unet_table c) k = Some (i, o, ks) ->
    shape (fst (P k)) = [o; i; ks; ks] /\ wf (fst (P k)) /\ shape (snd (P k)) = [o] /\ wf (snd (P k)).
