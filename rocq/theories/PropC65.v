(** C65: networks in a dtype other than torch's default. *)
From Coq Require Import List Arith Bool ZArith.
From Verif Require Import Scalar Tensor Conv Abstract Simple LinearLayer ConvLayer PoolLayer Module Dtype DtypeSpec DtypeProofs DtypeExact DtypeWitness.
Import ListNotations.

(** wanted: with parameters, input and vectors of one dtype every method returns that dtype in full precision and none raises because of
    dtypes.  True in torch's default dtype, and in any dtype for networks without Conv2d, MaxPool2d and Upsample (and, in a coarser
    dtype than the default, without L2Norm) *)
Theorem C65_uniform_partial : forall (K : Type) (N : Num K) (d dd : dtype) (m : module K), dd = d \/ plain d dd m = true ->
  forall s x val v mat mats w fd td db,
  good_state d s -> good d x -> good_opt d val -> good d v -> good_opt d mat -> good_value d mats ->
  fit (good d) (snd (t_forward d m s x)) /\
  fit (good_opt d) (snd (t_jacobian d dd m s x val w)) /\
  fit (good_opt d) (snd (t_jvp d dd m s x val v w)) /\
  fit (good_opt d) (snd (t_jmp d dd m s x val mat w)) /\
  fit (good_opt d) (snd (t_vjp d dd m s x val v w)) /\
  fit (good_opt d) (snd (t_mjp d dd m s x val mat w)) /\
  fit (good_value d) (snd (t_jmjTp d dd m s x val mats w fd td db)) /\
  fit (good_value d) (snd (t_jTmjp d dd m s x val mats w fd td db)).
Proof. exact (fun K N d dd m => uniform d dd m). Qed.
Print Assumptions C65_uniform_partial.
(** the backward products, and the jacobian of a Sequential, also allow convolutions with use_vmap_for_backprop *)
Theorem C65_backward_partial : forall (K : Type) (N : Num K) (d dd : dtype) (m : module K), backward d dd m = true ->
  forall s x val v mat mats w fd td db,
  good_state d s -> good d x -> good_opt d val -> good d v -> good d mat -> good_value d mats ->
  fit (good_opt d) (snd (t_vjp d dd m s x val v w)) /\
  fit (good_opt d) (snd (t_mjp d dd m s x val (Some mat) w)) /\
  (composite m = true -> fit (good_opt d) (snd (t_jacobian d dd m s x val w))) /\
  fit (good_value d) (snd (t_jTmjp d dd m s x val mats w fd td db)).
Proof. exact (fun K N d dd m => backward_methods d dd m). Qed.
Print Assumptions C65_backward_partial.
(** exactly which networks fail: the product of a vector with the jacobian for the input raises RuntimeError if the network contains a
    MaxPool2d or an Upsample and d is not torch's default dtype, or an L2Norm and d is coarser; otherwise it succeeds, in full precision *)
Theorem C65_exact : forall (K : Type) (N : Num K) (d dd : dtype) (m : module K), hooked m = true ->
  forall s x v, good d x -> good d v ->
  if spoils d dd m then snd (t_vjp d dd m s x None v Input) = Raise RuntimeError
  else exists n, snd (t_vjp d dd m s x None v Input) = Ok (Some n) /\ good d n.
Proof. exact (fun K N d dd m => vjp_input d dd m). Qed.
Print Assumptions C65_exact.
(** false in general, in float64 with torch's default float32: vjp and jTmjp of a network with MaxPool2d, vjp of Upsample and jacobian of
    Conv2d raise, and the jacobian of MaxPool2d is a float32 tensor; in float16, vjp of L2Norm raises *)
Theorem C65_refuted :
  (exists m : module Z, hooked m = true /\ snd (t_vjp Double Single m tst0 d64 None d64 Input) = Raise RuntimeError /\
     snd (t_jTmjp Double Single m tst0 d64 None TN Weight false true false) = Raise RuntimeError) /\
  (exists m : module Z, m = Leaf (Upsample 2 1) /\ snd (t_vjp Double Single m tst0 d64 None d64 Input) = Raise RuntimeError) /\
  (exists (m : module Z) cfg W, m = Leaf (Conv2d cfg W None) /\ cvmap cfg = true /\
     snd (t_jacobian Double Single m tst0 d64 None Input) = Raise RuntimeError) /\
  (exists m : module Z, m = Leaf (L2Norm 1%Z) /\
     snd (t_vjp Half Single m tst0 (mkN Half Half) None (mkN Half Half) Input) = Raise RuntimeError) /\
  (exists m : module Z, hooked m = true /\ snd (t_jacobian Double Single m tst0 d64 None Input) = Ok (Some (mkN Single Double))).
Proof. exact other_dtype_fails. Qed.
Print Assumptions C65_refuted.
Example C65_uniform_case : good Double d64 /\ plain Double Single dplain = true /\
  snd (t_jacobian Double Single dplain tst0 d64 None Input) = Ok (Some d64) /\
  snd (t_jvp Double Single dplain tst0 d64 None d64 Weight) = Ok (Some d64) /\
  snd (t_jmjTp Double Single dplain tst0 d64 None (TT d64) Weight false false false) = Ok (TT d64) /\
  snd (t_jTmjp Double Single dplain tst0 d64 None TN Weight false false false) = Ok (TL [TT d64; TL [TT d64]; TT d64]).
Proof. exact uniform_case. Qed.
Example C65_backward_case : backward Double Single dback = true /\ plain Double Single dback = false /\ composite dback = true /\
  snd (t_vjp Double Single dback tst0 d64 None d64 Weight) = Ok (Some d64) /\
  snd (t_jacobian Double Single dback tst0 d64 None Input) = Ok (Some d64).
Proof. exact backward_case. Qed.
Example C65_exact_case : hooked dpooled = true /\ spoils Double Single dpooled = true /\ spoils Single Single dpooled = false /\
  hooked dback = true /\ spoils Double Single dback = false /\ spoils Half Single dplain = true.
Proof. exact exact_case. Qed.
