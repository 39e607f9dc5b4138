(** Concrete layers: cases for the layer theorems, and witnesses for the properties that fail. *)
From Coq Require Import List Arith ZArith Bool Lia.
From Verif Require Import Scalar Sums Tensor Conv Abstract Simple LinearLayer ConvLayer PoolLayer Module Spec Domain LeafSpec ConvRaise ConvExact PoolExact LayerExact Examples.
Import ListNotations.
Local Open Scope nat_scope.
Local Open Scope list_scope.

(** the pairing of two flat tensors *)
Definition dotz (u v : tensor Z) : Z := fold_left Z.add (map (fun p => (fst p * snd p)%Z) (combine (data u) (data v))) 0%Z.

(** *** Conv2d *)
Definition conv_cfg_of (pad dil : nat * nat) (g : nat) (mode : pmode) (vmap : bool) : conv_cfg := Build_conv_cfg (1, 1) pad dil g mode vmap.
(** two input channels, three output channels, kernel 2 x 3, padding (1, 2), images 3 x 2 *)
Definition cfgL : conv_cfg := conv_cfg_of (1, 2) (1, 1) 1 PZeros true.
Definition WL : tensor Z := mkT [3; 2; 2; 3] (map (fun k => ((Z.of_nat k * 7) mod 11 - 4)%Z) (seq 0 36)).
Definition biasL : option (tensor Z) := Some (tz [3] [1; (-2); 3]%Z).
Definition xL : tensor Z := mkT [2; 2; 3; 2] (map (fun k => ((Z.of_nat k * 5) mod 7 - 2)%Z) (seq 0 24)).
Lemma convL_ok : conv_ok cfgL WL biasL [2; 3; 2] [3; 4; 4].
Proof. unfold conv_ok, dil_ok. cbn. repeat split; auto; lia. Qed.
(** circular, replicate and reflect padding: W2 on images 3 x 3 with padding (1, 1) *)
Definition cfgM (mode : pmode) : conv_cfg := conv_cfg_of (1, 1) (1, 1) 1 mode true.
Definition WM : tensor Z := tz [1; 1; 2; 2] [1; 2; 3; 5]%Z.
Definition xM : tensor Z := tz [1; 1; 3; 3] [1; 2; 3; 4; 5; 6; 7; 8; 9]%Z.
Definition vM : tensor Z := mkT [1; 16] (map Z.of_nat (seq 1 16)).
(** without bias the layer is linear in the kernel and in the input, so <v, forward> should be <vjp v, kernel> and <vjp v, input> *)
Lemma modes_wrong : forall mode, mode <> PZeros -> exists (cfg : conv_cfg) (W x y v u u' : tensor Z),
  cmode cfg = mode /\ conv_init_ok cfg = Ok tt /\ fwd (Leaf (Conv2d cfg W None)) x = Ok y /\ length (data v) = length (data y) /\
  snd (vjp (Leaf (Conv2d cfg W None)) st0 x None v Weight) = Ok (Some u) /\ length (data u) = length (data W) /\ dotz v y <> dotz u W /\
  snd (vjp (Leaf (Conv2d cfg W None)) st0 x None v Input) = Ok (Some u') /\ length (data u') = length (data x) /\ dotz v y <> dotz u' x.
Proof.
  intros mode Hm. exists (cfgM mode), WM, xM. destruct mode; [congruence| | |]; eexists; exists vM; do 2 eexists;
    repeat split; try (vm_compute; reflexivity); vm_compute; discriminate.
Qed.
(** the same test passes with zero padding *)
Lemma zeros_right : exists (y u u' : tensor Z),
  fwd (Leaf (Conv2d (cfgM PZeros) WM None)) xM = Ok y /\ snd (vjp (Leaf (Conv2d (cfgM PZeros) WM None)) st0 xM None vM Weight) = Ok (Some u) /\
  snd (vjp (Leaf (Conv2d (cfgM PZeros) WM None)) st0 xM None vM Input) = Ok (Some u') /\ dotz vM y = dotz u WM /\ dotz vM y = dotz u' xM /\ dotz vM y <> 0%Z.
Proof. do 3 eexists. repeat split; try (vm_compute; reflexivity); vm_compute; discriminate. Qed.
(** dilation 2 *)
Lemma dilated_raises : exists y, fwd (Leaf (Conv2d (conv_cfg_of (0, 0) (2, 2) 1 PZeros true) WM None)) xM = Ok y /\ shape y = [1; 1; 1; 1] /\
  ~ supported (conv_cfg_of (0, 0) (2, 2) 1 PZeros true) WM 1 3 3 /\
  snd (vjp (Leaf (Conv2d (conv_cfg_of (0, 0) (2, 2) 1 PZeros true) WM None)) st0 xM None (tz [1; 1] [1]%Z) Weight) = Raise RuntimeError.
Proof.
  eexists. split; [vm_compute; reflexivity|]. split; [reflexivity|]. split; [|vm_compute; reflexivity].
  unfold supported, dil_ok. cbn. intros (_ & _ & _ & _ & _ & _ & (_ & [E | [E _]]) & _); discriminate.
Qed.
Lemma supportedM : supported (cfgM PZeros) WM 1 3 3.
Proof. unfold supported, dil_ok. cbn. repeat split; auto; lia. Qed.

(** *** MaxPool2d *)
Definition poolO : pool_cfg := Build_pool_cfg (1, 2) (1, 1) (0, 0) (1, 1) false.
Definition xO : tensor Z := tz [1; 1; 1; 3] [1; 5; 2]%Z.
Lemma poolO_sized : pool_sized poolO [1; 1; 3] [1; 1; 2].
Proof.
  unfold pool_sized, poolO. cbn [pk ps pp pd pceil fst snd]. repeat split; try lia; try reflexivity;
    intros o Ho; destruct o as [|[|o]]; try lia; vm_compute; discriminate.
Qed.
Lemma pool_overlap : exists (cfg : pool_cfg) s s' (x J t t2 t3 : tensor Z), pool_sized cfg s s' /\ wf x /\ shape x = 1 :: s /\
  snd (jacobian (MaxPool cfg) st0 x None Input) = Ok (Some J) /\
  let v := tz [1; 2] [1; 1]%Z in let M := tz [1; 1; 2] [1; 1]%Z in let G := tz [1; 2; 2] [1; 0; 0; 1]%Z in
  snd (vjp (MaxPool cfg) st0 x None v Input) = Ok (Some t) /\ t <> vJ 1 2 3 (entry J) v /\
  snd (mjp (MaxPool cfg) st0 x None (Some M) Input) = Ok (Some t2) /\ t2 <> MJ 1 1 2 3 (entry J) M /\
  snd (jTmjp (MaxPool cfg) st0 x None (VT G) Input false false false) = Ok (VT t3) /\ t3 <> pull 1 2 3 (entry J) false false G.
Proof.
  exists poolO, [1; 1; 3], [1; 1; 2], xO. do 4 eexists. split; [exact poolO_sized|]. split; [vm_compute; reflexivity|]. split; [reflexivity|].
  repeat split; try (vm_compute; reflexivity); vm_compute; discriminate.
Qed.
(** overlapping windows whose maxima differ *)
Definition xO' : tensor Z := tz [1; 1; 1; 3] [7; 5; 8]%Z.
Lemma poolO_good : exists J, snd (jacobian (MaxPool poolO) st0 xO' None Input) = Ok (Some J) /\ no_double 1 2 3 J /\ data J = [1; 0; 0; 0; 0; 1]%Z.
Proof.
  eexists. split; [vm_compute; reflexivity|]. split; [|reflexivity]. intros q i i' j Hq Hi Hi' Hj. destruct q as [|q]; [|lia].
  destruct i as [|[|i]]; [| |lia]; destruct i' as [|[|i']]; try lia; destruct j as [|[|[|j]]]; try lia; vm_compute; congruence.
Qed.

(** *** Upsample *)
(** scale factor 5/2 on a 2 x 2 image *)
Lemma fractional_wrong : exists (x y v u : tensor Z),
  fwd (Leaf (Upsample 5 2)) x = Ok y /\ shape y = [1; 1; 5; 5] /\ shape v = [1; 25] /\
  snd (vjp (Leaf (Upsample 5 2)) st0 x None v Input) = Ok (Some u) /\ shape u = [1; 4] /\ dotz v y <> dotz u x.
Proof.
  exists (tz [1; 1; 2; 2] [1; 2; 3; 4]%Z). eexists. exists (mkT [1; 25] (map Z.of_nat (seq 1 25))). eexists.
  repeat split; try (vm_compute; reflexivity). vm_compute. discriminate.
Qed.
Lemma integer_right : exists (y u : tensor Z),
  fwd (Leaf (Upsample 4 2)) (tz [1; 1; 2; 2] [1; 2; 3; 4]%Z) = Ok y /\ shape y = [1; 1; 4; 4] /\
  snd (vjp (Leaf (Upsample 4 2)) st0 (tz [1; 1; 2; 2] [1; 2; 3; 4]%Z) None (mkT [1; 16] (map Z.of_nat (seq 1 16))) Input) = Ok (Some u) /\
  data u = [14; 22; 46; 54]%Z /\ dotz (mkT [1; 16] (map Z.of_nat (seq 1 16))) y = dotz u (tz [1; 1; 2; 2] [1; 2; 3; 4]%Z).
Proof. do 2 eexists. repeat split; vm_compute; reflexivity. Qed.

(** *** user-defined layers *)
(** (a, b) |-> (a + b, b) on flat samples: jacobian [[1, 1], [0, 1]] *)
Definition shear : custom Z := {|
  cu_forward := fun x => match shape x with [b; 2] => Ok (tab2 b 2 (fun q i => if i =? 0 then Z.add (get 0%Z x [q; 0]) (get 0%Z x [q; 1]) else get 0%Z x [q; 1])) | _ => Raise RuntimeError end;
  cu_jacobian := fun x _ w => match w, shape x with
    | Input, [b; 2] => Ok (Some (tab3 b 2 2 (fun _ i j => if (i =? 0) || (j =? 1) then 1%Z else 0%Z)))
    | Input, _ => Raise RuntimeError | _, _ => Ok None end |}.
Lemma shear_ok : custom_ok shear [2] [2].
Proof.
  intros b x Hb Wx Sx. cbn [shear cu_forward cu_jacobian]. rewrite Sx. eexists. exists (tab3 b 2 2 (fun _ i j => if (i =? 0) || (j =? 1) then 1%Z else 0%Z)). split; [reflexivity|].
  split; [apply TensorLemmas.wf_tab|]. split; [reflexivity|]. split; [apply TensorLemmas.wf_tab|]. split; [reflexivity|]. auto.
Qed.
(** the three diagonal modes of jTmjp, alone and inside a Sequential *)
Lemma shear_wrong : exists (c : custom Z) (x J : tensor Z), custom_ok c [2] [2] /\ wf x /\ shape x = [1; 2] /\
  cu_jacobian c x None Input = Ok (Some J) /\ shape J = [1; 2; 2] /\
  forall fd td, fd || td = true -> exists M t t', shape M = metric_shape fd 1 2 /\
    snd (jTmjp (Leaf (Custom c)) st0 x None (VT M) Input fd td false) = Ok (VT t) /\ t <> pull 1 2 2 (entry J) fd td M /\
    snd (jTmjp (Seq true [Leaf (Custom c)]) st0 x None (VT M) Input fd td false) = Ok (VT t') /\ t' <> pull 1 2 2 (entry J) fd td M.
Proof.
  exists shear, (tz [1; 2] [3; 4]%Z). eexists. split; [exact shear_ok|]. split; [reflexivity|]. split; [reflexivity|]. split; [reflexivity|]. split; [reflexivity|].
  intros fd td E. exists (if fd then tz [1; 2] [1; 2]%Z else tz [1; 2; 2] [1; 2; 3; 4]%Z).
  destruct fd, td; try discriminate; do 2 eexists; repeat split; try (vm_compute; reflexivity); vm_compute; discriminate.
Qed.
