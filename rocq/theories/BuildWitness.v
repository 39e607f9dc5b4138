(** Constructors: concrete networks. *)
From Coq Require Import String List Arith ZArith Lia Bool.
From Verif Require Import Scalar Tensor Conv Abstract Simple Module Domain Build BuildSpec Examples.
Import ListNotations.
Local Open Scope nat_scope.
Local Open Scope list_scope.

Definition wz (l : list nat) : Z := (Z.of_nat (list_sum l) - 1)%Z.
(** Sequential(SkipConnection(Conv2d(1, 1, 3, padding=1)), ReLU(), MaxPool2d(2), Upsample(scale_factor=2), Flatten(), Linear(8, 2)) *)
Definition written : expr Z :=
  ESeq true [ESkip true [EConv {| a_in := 1; a_out := 1; a_kernel := One 3; a_stride := One 1; a_padding := PadSize (One 1); a_dilation := One 1;
                                  a_groups := 1; a_bias := true; a_mode := PZeros; a_vmap := true |} wz wz];
             EAct ReLU; EPool (One 2) None (One 0) (One 1) false; EUpsample 2 1; EFlatten; ELinear 8 2 true wz wz].
Definition image22 : tensor Z := mkT [1; 1; 2; 2] [1; 2; (-1); 3]%Z.
Lemma written_case : plain written /\ legal written /\ asked written = 28 /\ exists m y,
  build written = Ok (Some m) /\ fits m image22 /\ fwd m image22 = Ok y /\ shape y = [1; 2].
Proof.
  split; [cbn; unfold plain_conv, plain_pool; cbn; repeat split; auto; lia|].
  split; [cbn; repeat split; auto; try (exists 1; reflexivity); eauto|]. split; [reflexivity|].
  eexists. eexists. split; [vm_compute; reflexivity|]. split.
  - cbn [fits fits_seq]. repeat (split; [try exact I; try (intros; exact I); try reflexivity|intros ? E; vm_compute in E; injection E as <-]);
      try exact I; try reflexivity.
  - split; vm_compute; reflexivity.
Qed.
(** a legal network outside these settings: Conv2d(1, 1, 2, dilation=2) *)
Definition dilated : expr Z :=
  EConv {| a_in := 1; a_out := 1; a_kernel := One 2; a_stride := One 1; a_padding := PadSize (One 0); a_dilation := One 2;
           a_groups := 1; a_bias := true; a_mode := PZeros; a_vmap := true |} wz wz.
Lemma dilated_case : exists m (x y v : tensor Z) e,
  legal dilated /\ build dilated = Ok (Some m) /\ fits m x /\ fwd m x = Ok y /\ shape y = [1; 1; 1; 1] /\
  shape v = [1; 1] /\ snd (vjp m st0 x None v Weight) = Raise e.
Proof.
  eexists. exists (mkT [1; 1; 3; 3] [1; 2; 3; 4; 5; 6; 7; 8; 9]%Z). eexists. exists (mkT [1; 1] [1]%Z). eexists.
  split; [cbn; repeat split; auto; try (exists 1; reflexivity); eauto|]. repeat split; vm_compute; reflexivity.
Qed.
(** what the constructor of Conv2d rejects *)
Definition conv_with (i o : nat) (stride : size2) (p : pad_arg) (g : nat) : expr Z :=
  EConv {| a_in := i; a_out := o; a_kernel := One 3; a_stride := stride; a_padding := p; a_dilation := One 1;
           a_groups := g; a_bias := true; a_mode := PZeros; a_vmap := true |} wz wz.
Lemma rejected_cases :
  build (conv_with 1 1 (One 2) (PadSize (One 0)) 1) = Raise ValueError /\ build (conv_with 1 1 (Two 1 2) (PadSize (One 0)) 1) = Raise ValueError /\
  build (conv_with 1 1 (One 1) (PadStr "same"%string) 1) = Raise TypeError /\ build (conv_with 1 1 (One 1) (PadStr "valid"%string) 1) = Raise TypeError /\
  build (conv_with 3 2 (One 1) (PadSize (One 0)) 2) = Raise ValueError /\
  build (ESeq true [ELinear 2 2 true wz wz; Foreign]) = Raise AttributeError.
Proof. repeat split; reflexivity. Qed.
