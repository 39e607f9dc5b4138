(** C66: the precision of gradients. *)
From Coq Require Import List Arith Bool ZArith.
From Verif Require Import Scalar Tensor Conv Abstract Simple LinearLayer ConvLayer PoolLayer Module Dtype DtypeSpec DtypeProofs DtypeExact DtypeWitness.
Import ListNotations.

(** wanted: a gradient computed in dtype d has dtype d and is not rounded to a coarser one on the way.  Exactly: it is so unless the network
    contains a Conv2d with use_vmap_for_backprop=False and d is not torch's default dtype; then the gradient has the wrong dtype or has
    been rounded, and nothing is raised *)
Theorem C66_exact : forall (K : Type) (N : Num K) (d dd : dtype) (m : module K), hooked m = true -> spoils d dd m = false ->
  forall s x v, good d x -> good d v ->
  exists o, snd (t_vjp d dd m s x None v Weight) = Ok o /\
  match o with
  | None => lossy d dd m = false
  | Some n => good d n <-> lossy d dd m = false
  end.
Proof. exact (fun K N d dd m => vjp_weight d dd m). Qed.
Print Assumptions C66_exact.
(** so the wanted statement holds in torch's default dtype, and with use_vmap_for_backprop=True *)
Theorem C66_partial : forall (K : Type) (N : Num K) (d dd : dtype) (m : module K), hooked m = true ->
  (dd = d \/ backward d dd m = true) ->
  forall s x v, good d x -> good d v -> exists o, snd (t_vjp d dd m s x None v Weight) = Ok o /\ good_opt d o.
Proof. exact (fun K N d dd m => vjp_weight_good d dd m). Qed.
Print Assumptions C66_partial.
(** false in general: a float64 gradient with the precision of float32, a float32 gradient of a float64 layer, and a float32 gradient of a
    float16 network *)
Theorem C66_refuted :
  (exists m : module Z, hooked m = true /\ spoils Double Single m = false /\
     snd (t_vjp Double Single m tst0 d64 None d64 Weight) = Ok (Some (mkN Double Single))) /\
  (exists m : module Z, hooked m = true /\ spoils Double Single m = false /\
     snd (t_vjp Double Single m tst0 d64 None d64 Weight) = Ok (Some (mkN Single Single))) /\
  (exists m : module Z, hooked m = true /\ spoils Half Single m = false /\
     snd (t_vjp Half Single m tst0 (mkN Half Half) None (mkN Half Half) Weight) = Ok (Some (mkN Single Half))).
Proof. exact rounded_gradient. Qed.
Print Assumptions C66_refuted.
Example C66_exact_case : lossy Double Single dloop = true /\ lossy Single Single dloop = false /\ lossy Double Single dback = false.
Proof. exact lossy_case. Qed.
