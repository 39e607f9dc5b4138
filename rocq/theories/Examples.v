(** Concrete networks over Z used to show that the hypotheses of the property theorems can be met. *)
From Coq Require Import String Ascii List Arith ZArith Lia Bool.
From Verif Require Import Scalar Sums Tensor Conv Abstract Simple LinearLayer ConvLayer PoolLayer Module Spec Domain.
Import ListNotations.
Local Open Scope nat_scope.
Local Open Scope list_scope.

Definition tz (s : list nat) (l : list Z) : tensor Z := mkT s l.
Arguments tz s%list_scope l%Z_scope.

(** Linear(2,2) - ReLU - SkipConnection(Linear(2,1), ReLU) - Sequential(Linear(3,2) without bias), 15 parameters *)
Definition netA : module Z := Seq true [
  Leaf (Linear (tz [2; 2] [1; 2; 3; (-1)]%Z) (Some (tz [2] [1; (-2)]%Z)));
  Leaf (Act ReLU);
  Skip (Seq true [Leaf (Linear (tz [1; 2] [2; 1]%Z) (Some (tz [1] [3]%Z))); Leaf (Act ReLU)]);
  Seq true [Leaf (Linear (tz [2; 3] [1; 0; 2; (-1); 1; 1]%Z) None)]].
Definition xA : tensor Z := tz [2; 2] [1; 2; 3; (-1)]%Z.
Lemma xA_wf : wf xA. Proof. reflexivity. Qed.
Ltac leaf_dom := unfold leaf_typed; cbn; unfold dil_ok; repeat split; try lia; try reflexivity; try (left; reflexivity).
Lemma netA_typed : typed netA [2] [2].
Proof.
  apply ty_seq. eapply tys_cons; [|eapply tys_cons; [|eapply tys_cons; [|eapply tys_cons; [|apply tys_nil]]]].
  - apply ty_leaf with (s' := [2]). leaf_dom.
  - apply ty_leaf with (s' := [2]). leaf_dom.
  - apply (ty_skip _ 2 1 []). eapply tys_cons; [|eapply tys_cons; [|apply tys_nil]].
    + apply ty_leaf with (s' := [1]). leaf_dom.
    + apply ty_leaf. leaf_dom.
    + cbn; lia.
  - apply ty_seq. eapply tys_cons; [|apply tys_nil].
    + apply ty_leaf. leaf_dom.
    + cbn; lia.
  - cbn; lia.
Qed.
Lemma netA_fwdable : fwdable netA. Proof. cbn. tauto. Qed.
Lemma netA_sym : all_sym netA. Proof. cbn. tauto. Qed.
Lemma netA_nonempty : nonempty netA. Proof. cbn. repeat split; discriminate. Qed.
Lemma netA_skips : skips_param netA. Proof. cbn. repeat split; discriminate. Qed.

(** Reshape(1,-1,4) - Conv2d(1,2,3,padding=1) - MaxPool2d(2) - Upsample(2) - Flatten - Linear(32,1), 53 parameters *)
Definition cfgB : conv_cfg := Build_conv_cfg (1, 1) (1, 1) (1, 1) 1 PZeros false.
Definition poolB : pool_cfg := Build_pool_cfg (2, 2) (2, 2) (0, 0) (1, 1) false.
Definition WB : tensor Z := tz [2; 1; 3; 3] [1; 0; 2; (-1); 1; 1; 0; 2; 1;  2; 1; 0; 0; 1; (-1); 1; 1; 3]%Z.
Definition netB : module Z := Seq true [
  Leaf (Reshape [1; -1; 4]%Z);
  Leaf (Conv2d cfgB WB (Some (tz [2] [1; (-1)]%Z)));
  MaxPool poolB;
  Leaf (Upsample 2 1);
  Leaf Flatten;
  Leaf (Linear (mkT [1; 32] (map (fun k => (Z.of_nat k - 7) mod 5)%Z (seq 0 32))) (Some (tz [1] [1]%Z)))].
Definition xB : tensor Z := mkT [1; 16] (map (fun k => ((Z.of_nat k * 7) mod 11)%Z) (seq 0 16)).
Lemma xB_wf : wf xB. Proof. reflexivity. Qed.
Lemma poolB_typed : pool_typed poolB [2; 4; 4] [2; 2; 2].
Proof.
  assert (W : windows_ok 4 2 2 0 1 2). { intros o Ho. destruct o as [|[|o]]; [discriminate|discriminate|lia]. }
  assert (D : disjoint_windows 4 2 2 0 1 2).
  { intros o o' z Ho Ho'. destruct o as [|[|o]], o' as [|[|o']]; try lia; cbn; intuition; subst; discriminate. }
  unfold pool_typed. repeat split; auto; cbn; lia.
Qed.
Lemma netB_typed : typed netB [16] [1].
Proof.
  apply ty_seq. eapply tys_cons; [|eapply tys_cons; [|eapply tys_cons; [|eapply tys_cons; [|eapply tys_cons; [|eapply tys_cons; [|apply tys_nil]]]]]].
  - apply ty_leaf with (s' := [1; 4; 4]). leaf_dom.
  - apply ty_leaf with (s' := [2; 4; 4]). leaf_dom.
  - apply ty_pool. apply poolB_typed.
  - apply ty_leaf with (s' := [2; 4; 4]). leaf_dom.
  - apply ty_leaf with (s' := [32]). leaf_dom.
  - apply ty_leaf. leaf_dom.
  - cbn; lia.
Qed.
Lemma netB_sym : all_sym netB. Proof. cbn. tauto. Qed.
Lemma netB_nonempty : nonempty netB. Proof. cbn. repeat split; discriminate. Qed.

(** a network without parameters *)
Definition netP : module Z := Seq true [Leaf (Act ReLU); Leaf Flatten].
Lemma netP_typed : typed netP [2] [2].
Proof.
  apply ty_seq. eapply tys_cons; [|eapply tys_cons; [|apply tys_nil]].
  - apply ty_leaf with (s' := [2]). leaf_dom.
  - apply ty_leaf. leaf_dom.
  - cbn; lia.
Qed.

(** Linear(2,3) - ReLU - Linear(3,2): no module with a memory inside *)
Definition netF : module Z := Seq true [
  Leaf (Linear (tz [3; 2] [1; 2; 3; (-1); 0; 2]%Z) (Some (tz [3] [1; (-2); 0]%Z)));
  Leaf (Act ReLU);
  Leaf (Linear (tz [2; 3] [1; 0; 2; (-1); 1; 1]%Z) None)].
Lemma netF_typed : typed netF [2] [2].
Proof.
  apply ty_seq. eapply tys_cons; [|eapply tys_cons; [|eapply tys_cons; [|apply tys_nil]]].
  - apply ty_leaf with (s' := [3]). leaf_dom.
  - apply ty_leaf with (s' := [3]). leaf_dom.
  - apply ty_leaf. leaf_dom.
  - cbn; lia.
Qed.
(** a Sequential inside a Sequential *)
Definition netN : module Z := Seq true [Seq true [Leaf (Act ReLU)]].
Lemma netN_typed : typed netN [1] [1].
Proof.
  apply ty_seq. eapply tys_cons; [|apply tys_nil; cbn; lia]. apply ty_seq. eapply tys_cons; [|apply tys_nil; cbn; lia]. apply ty_leaf. leaf_dom.
Qed.
(** a skip connection on its own *)
Definition netS : module Z := Skip (Seq true [Leaf (Linear (tz [1; 2] [2; 1]%Z) (Some (tz [1] [3]%Z))); Leaf (Act ReLU)]).
Lemma netS_typed : typed netS [2] [3].
Proof.
  apply (ty_skip _ 2 1 []). eapply tys_cons; [|eapply tys_cons; [|apply tys_nil]].
  - apply ty_leaf with (s' := [1]). leaf_dom.
  - apply ty_leaf. leaf_dom.
  - cbn; lia.
Qed.
Lemma reluZ_typed : typed (Seq true [Leaf (Act (@ReLU Z))]) [1] [1].
Proof. apply ty_seq. eapply tys_cons; [|apply tys_nil; cbn; lia]. apply ty_leaf. leaf_dom. Qed.
