(** Concrete models and blocks for C41 and C42. *)
From Coq Require Import List Arith Lia Bool ZArith Reals Lra.
From Verif Require Import Scalar Sums Tensor Conv Abstract Simple LinearLayer ConvLayer PoolLayer Module Spec Domain Utils UtilSpec UtilProofs Examples ExamplesR.
Import ListNotations.
Local Open Scope nat_scope.
Local Open Scope list_scope.

(** Conv2d(1, 2, 2) - ReLU - MaxPool2d(2) - Flatten - Linear(2, 2) *)
Definition torchA : list (tlayer Z) := [
  TConv2d default_conv (tz [2; 1; 2; 2] [1; -1; 2; 0; 0; 1; 1; -2]%Z) (Some (tz [2] [1; -1]%Z));
  TAct ReLU; TMaxPool2d (default_pool (2, 2)); TFlatten;
  TLinear (tz [2; 2] [1; 2; 3; -1]%Z) (Some (tz [2] [5; 6]%Z))].
Definition imgA : tensor Z := tz [1; 1; 3; 3] [1; 2; 3; -4; 5; 6; 7; -8; 9]%Z.
Lemma torchA_plain : Forall plain torchA.
Proof. repeat constructor; cbn; try discriminate; auto. Qed.

(** layers with the same weights whose configuration is lost *)
Definition torch_pad : list (tlayer Z) :=
  [TConv2d {| cstride := (1, 1); cpad := (1, 1); cdil := (1, 1); cgroups := 1; cmode := PZeros; cvmap := true |} (tz [1; 1; 1; 1] [1]%Z) (Some (tz [1] [0]%Z))].
Definition torch_stride : list (tlayer Z) := [TMaxPool2d {| pk := (2, 2); ps := (1, 1); pp := (0, 0); pd := (1, 1); pceil := false |}].
Definition torch_nested : list (tlayer Z) := [TSequential [TLinear (tz [1; 1] [2]%Z) (Some (tz [1] [0]%Z))]].
Lemma convert_changes (ls : list (tlayer Z)) (x y y' : tensor Z) : t_seq_forward ls x = Ok y ->
  (exists m, convert_to_nnj ls = Ok m /\ snd (forward m st0 x) = Ok y') -> y <> y' ->
  exists m, convert_to_nnj ls = Ok m /\ snd (forward m st0 x) <> t_seq_forward ls x.
Proof. intros E (m & C & F) N. exists m. split; auto. rewrite E, F. congruence. Qed.
Lemma pad_changes : exists m, convert_to_nnj torch_pad = Ok m /\ snd (forward m st0 (tz [1; 1; 1; 1] [3]%Z)) <> t_seq_forward torch_pad (tz [1; 1; 1; 1] [3]%Z).
Proof.
  eapply (convert_changes torch_pad); [vm_compute; reflexivity| |].
  - eexists. split; [reflexivity|]. vm_compute. reflexivity.
  - discriminate.
Qed.
Lemma stride_changes : exists m, convert_to_nnj torch_stride = Ok m /\ snd (forward m st0 imgA) <> t_seq_forward torch_stride imgA.
Proof.
  eapply (convert_changes torch_stride); [vm_compute; reflexivity| |].
  - eexists. split; [reflexivity|]. vm_compute. reflexivity.
  - discriminate.
Qed.
Lemma nested_changes : exists m, convert_to_nnj torch_nested = Ok m /\ snd (forward m st0 (tz [1; 1] [3]%Z)) <> t_seq_forward torch_nested (tz [1; 1] [3]%Z).
Proof.
  eapply (convert_changes torch_nested); [vm_compute; reflexivity| |].
  - eexists. split; [reflexivity|]. vm_compute. reflexivity.
  - discriminate.
Qed.
(** Softplus(beta=2) at 0 *)
Definition torch_soft : list (tlayer R) := [TAct (Softplus 2%R 20%R)].
Lemma soft_changes : exists m, convert_to_nnj torch_soft = Ok m /\ snd (forward m st0 (tr [1; 1] [0%R])) <> t_seq_forward torch_soft (tr [1; 1] [0%R]).
Proof.
  eexists. split; [reflexivity|].
  assert (L2 : (0 < ln 2)%R) by (rewrite <- ln_1; apply ln_increasing; lra).
  cbv -[Rplus Rmult Rminus Ropp Rdiv Rinv exp ln IZR R0 R1 Rlt_dec].
  rewrite !Rmult_0_r.
  repeat match goal with |- context [Rlt_dec ?a ?b] => destruct (Rlt_dec a b); [exfalso; lra|] end.
  rewrite exp_0. intros E.
  assert (E' : (ln (1 + 1) / 1 = ln (1 + 1) / 2)%R) by congruence.
  replace (1 + 1)%R with 2%R in E' by ring. lra.
Qed.

Lemma settings_change :
  (exists m x, convert_to_nnj torch_pad = Ok m /\ snd (forward m st0 x) <> t_seq_forward torch_pad x) /\
  (exists m x, convert_to_nnj torch_stride = Ok m /\ snd (forward m st0 x) <> t_seq_forward torch_stride x) /\
  (exists m x, convert_to_nnj torch_nested = Ok m /\ snd (forward m st0 x) <> t_seq_forward torch_nested x) /\
  (exists m x, convert_to_nnj torch_soft = Ok m /\ snd (forward m st0 x) <> t_seq_forward torch_soft x).
Proof.
  split; [|split; [|split]].
  - destruct pad_changes as (m & H). eauto.
  - destruct stride_changes as (m & H). eauto.
  - destruct nested_changes as (m & H). eauto.
  - destruct soft_changes as (m & H). eauto.
Qed.
Lemma convert_no_bias {K} {N : Num K} (ls : list (tlayer K)) l : In l ls ->
  match l with TLinear _ b | TConv2d _ _ b => b = None | _ => False end -> convert_to_nnj ls = Raise AttributeError.
Proof.
  intros I B. apply (convert_raise ls l AttributeError I). destruct l; try contradiction; subst; reflexivity.
Qed.

(** two blocks: a batch of two 2x2 Cholesky factors, and a nested list holding a 1x1 block *)
Definition blocksA : value R := VL [VT (mkT [2; 2; 2] [1; 0; 2; 3; 4; 0; 5; 6]%R); VL [VT (mkT [1; 1] [7%R])]].
Lemma blocksA_ok : blocks (fun n A => (forall i, i < n -> A i i <> 0%R) /\ forall i j, i < j -> j < n -> A i j = 0%R) blocksA.
Proof.
  unfold blocksA. constructor. constructor; [|constructor; [|constructor]].
  - apply (bl_tensor _ [2] 2); [reflexivity|]. intros [|p [|]] Hp; cbn in Hp; try tauto. destruct Hp as [Hp _].
    split.
    + intros i Hi. destruct p as [|[|]]; [| |lia]; (destruct i as [|[|]]; [| |lia]); cbv -[IZR]; lra.
    + intros i j Hij Hj. assert (i = 0) by lia. assert (j = 1) by lia. subst. destruct p as [|[|]]; [| |lia]; reflexivity.
  - constructor. constructor; [|constructor]. apply (bl_tensor _ [] 1); [reflexivity|]. intros [|] Hp; cbn in Hp; try tauto. split.
    + intros i Hi. assert (i = 0) by lia. subst. cbv -[IZR]. lra.
    + intros i j Hij Hj. lia.
Qed.
Lemma blocks_weaken (P Q : nat -> mat -> Prop) : (forall n A, P n A -> Q n A) -> forall v, blocks P v -> blocks Q v.
Proof.
  intros PQ. refine (value_nested_ind _ _ _ _).
  - intros B. inversion B.
  - intros t B. inversion B; subst. econstructor; eauto.
  - intros l IH B. inversion B; subst. constructor. rewrite Forall_forall in *. auto.
Qed.
Lemma blockwise_impl (P Q : nat -> mat -> mat -> Prop) (R0 : nat -> mat -> Prop) : (forall n A X, R0 n A -> P n A X -> Q n A X) ->
  forall v u, blocks R0 v -> blockwise P v u -> blockwise Q v u.
Proof.
  intros PQ. refine (value_nested_ind _ _ _ _).
  - intros u B. inversion B.
  - intros t u B C. inversion B as [pre n t0 St HB|]; subst. inversion C as [pre' n' t1 u1 St' Su Wu HC|]; subst.
    rewrite St in St'. assert (E : pre = pre' /\ n = n').
    { apply (f_equal (@rev nat)) in St'. rewrite !rev_app_distr in St'. cbn in St'. injection St' as -> _ H.
      apply (f_equal (@rev nat)) in H. rewrite !rev_involutive in H. auto. }
    destruct E as [<- <-]. apply (bw_tensor _ pre n); auto.
  - intros l IH u B C. inversion B as [|l0 HB]; subst. inversion C as [|l1 l2 HC]; subst. constructor.
    clear B C. induction HC as [|a b l l2 Hab HC IHC]; constructor; inversion IH; inversion HB; subst; auto.
Qed.
Lemma gram_ext n (A B : mat) i j : (forall k, k < n -> A i k = B i k) -> (forall k, k < n -> A j k = B j k) -> gram n A i j = gram n B i j.
Proof. intros E F. apply (bsum_ext (K := R)). intros k Hk. now rewrite E, F. Qed.
Definition is_factor (n : nat) (A : mat) : Prop := (forall i, i < n -> A i i <> 0%R) /\ forall i j, i < j -> j < n -> A i j = 0%R.
(** the blocks are Cholesky factors *)
Lemma invert_factors (v : value R) : blocks is_factor v ->
  exists u, invert_block_diagonal v = Ok u /\ blockwise (fun n C X => is_inverse n (gram n C) X) v u.
Proof.
  intros B. destruct (invert_blocks v) as (u & E & W).
  - apply (blocks_weaken is_factor); auto. intros n A [H _]. exact H.
  - exists u. split; auto. apply (blockwise_impl factor_inverse _ is_factor); auto.
    intros n A X [_ HF] [HI _] i j Hi Hj.
    assert (L : forall a k, a < n -> k < n -> tril A a k = A a k).
    { intros a k Ha Hk. unfold tril. destruct (Nat.leb_spec k a); auto. symmetry. now apply HF. }
    assert (G : forall a k, a < n -> k < n -> gram n (tril A) a k = gram n A a k) by (intros; apply gram_ext; auto).
    destruct (HI i j Hi Hj) as [H1 H2]. 
    split; [rewrite <- H1|rewrite <- H2]; apply mmul_ext; intros; auto; symmetry; auto.
Qed.
