(** Concrete networks for the properties of dtypes: parameters, inputs and vectors in float64, torch's default
    dtype float32. *)
From Coq Require Import List Arith Bool ZArith.
From Verif Require Import Scalar Tensor Conv Abstract Simple LinearLayer ConvLayer PoolLayer Module Dtype DtypeSpec.
Import ListNotations.

Definition dW : tensor Z := mkT [1; 1] [1%Z].
Definition dK : tensor Z := mkT [1; 1; 1; 1] [1%Z].
Definition dB : tensor Z := mkT [1] [1%Z].
Definition dpool : pool_cfg := {| pk := (2, 2); ps := (2, 2); pp := (0, 0); pd := (1, 1); pceil := false |}.
Definition dcfg (v : bool) : conv_cfg :=
  {| cstride := (1, 1); cpad := (0, 0); cdil := (1, 1); cgroups := 1; cmode := PZeros; cvmap := v |}.
(** a float64 tensor *)
Definition d64 : num := mkN Double Double.
Definition dplain : module Z := Seq true [Leaf (Linear dW (Some dB)); Skip (Seq true [Leaf (Linear dW None); Leaf (Act Tanh); Leaf (L2Norm 1%Z)]); Leaf (Linear dW None)].
Definition dback : module Z := Seq true [Leaf (Conv2d (dcfg true) dK (Some dB)); Leaf (Act ReLU); Leaf Flatten; Leaf (Linear dW (Some dB))].
Definition dloop : module Z := Seq true [Leaf (Conv2d (dcfg false) dK (Some dB)); Leaf Flatten; Leaf (Linear dW None)].
Definition dpooled : module Z := Seq true [Leaf (Conv2d (dcfg true) dK None); MaxPool dpool; Leaf (Act ReLU)].

Lemma uniform_case : good Double d64 /\ plain Double Single dplain = true /\
  snd (t_jacobian Double Single dplain tst0 d64 None Input) = Ok (Some d64) /\
  snd (t_jvp Double Single dplain tst0 d64 None d64 Weight) = Ok (Some d64) /\
  snd (t_jmjTp Double Single dplain tst0 d64 None (TT d64) Weight false false false) = Ok (TT d64) /\
  snd (t_jTmjp Double Single dplain tst0 d64 None TN Weight false false false) = Ok (TL [TT d64; TL [TT d64]; TT d64]).
Proof. repeat split; vm_compute; reflexivity. Qed.
Lemma backward_case : backward Double Single dback = true /\ plain Double Single dback = false /\ composite dback = true /\
  snd (t_vjp Double Single dback tst0 d64 None d64 Weight) = Ok (Some d64) /\
  snd (t_jacobian Double Single dback tst0 d64 None Input) = Ok (Some d64).
Proof. repeat split; vm_compute; reflexivity. Qed.
Lemma other_dtype_fails :
  (exists m : module Z, hooked m = true /\ snd (t_vjp Double Single m tst0 d64 None d64 Input) = Raise RuntimeError /\
     snd (t_jTmjp Double Single m tst0 d64 None TN Weight false true false) = Raise RuntimeError) /\
  (exists m : module Z, m = Leaf (Upsample 2 1) /\ snd (t_vjp Double Single m tst0 d64 None d64 Input) = Raise RuntimeError) /\
  (exists (m : module Z) cfg W, m = Leaf (Conv2d cfg W None) /\ cvmap cfg = true /\
     snd (t_jacobian Double Single m tst0 d64 None Input) = Raise RuntimeError) /\
  (exists m : module Z, m = Leaf (L2Norm 1%Z) /\
     snd (t_vjp Half Single m tst0 (mkN Half Half) None (mkN Half Half) Input) = Raise RuntimeError) /\
  (exists m : module Z, hooked m = true /\ snd (t_jacobian Double Single m tst0 d64 None Input) = Ok (Some (mkN Single Double))).
Proof.
  split; [|split; [|split; [|split]]].
  - exists dpooled. repeat split; vm_compute; reflexivity.
  - exists (Leaf (Upsample 2 1)). repeat split; vm_compute; reflexivity.
  - exists (Leaf (Conv2d (dcfg true) dK None)), (dcfg true), dK. repeat split; vm_compute; reflexivity.
  - exists (Leaf (L2Norm 1%Z)). repeat split; vm_compute; reflexivity.
  - exists (MaxPool dpool). repeat split; vm_compute; reflexivity.
Qed.
Lemma exact_case : hooked dpooled = true /\ spoils Double Single dpooled = true /\ spoils Single Single dpooled = false /\
  hooked dback = true /\ spoils Double Single dback = false /\ spoils Half Single dplain = true.
Proof. repeat split. Qed.
Lemma rounded_gradient :
  (exists m : module Z, hooked m = true /\ spoils Double Single m = false /\
     snd (t_vjp Double Single m tst0 d64 None d64 Weight) = Ok (Some (mkN Double Single))) /\
  (exists m : module Z, hooked m = true /\ spoils Double Single m = false /\
     snd (t_vjp Double Single m tst0 d64 None d64 Weight) = Ok (Some (mkN Single Single))) /\
  (exists m : module Z, hooked m = true /\ spoils Half Single m = false /\
     snd (t_vjp Half Single m tst0 (mkN Half Half) None (mkN Half Half) Weight) = Ok (Some (mkN Single Half))).
Proof.
  split; [|split].
  - exists dloop. repeat split; vm_compute; reflexivity.
  - exists (Leaf (Conv2d (dcfg false) dK None)). repeat split; vm_compute; reflexivity.
  - exists dloop. repeat split; vm_compute; reflexivity.
Qed.
Lemma lossy_case : lossy Double Single dloop = true /\ lossy Single Single dloop = false /\ lossy Double Single dback = false.
Proof. repeat split. Qed.
