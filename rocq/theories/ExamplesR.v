(** Concrete networks over the reals used to show that the hypotheses of the derivative theorems can be met. *)
From Coq Require Import List Arith Lia Bool Reals Lra.
From Verif Require Import Scalar Sums Tensor Conv Abstract Simple LinearLayer ConvLayer PoolLayer Module Spec Domain Smooth Calc Examples.
Import ListNotations.
Local Open Scope nat_scope.
Local Open Scope list_scope.

Definition tr (s : list nat) (l : list R) : tensor R := mkT s l.

(** ReLU - SkipConnection(Linear(2,1), Tanh) - Linear(3,2) without bias - Softplus *)
Definition netR : module R := Seq true [
  Leaf (Act ReLU);
  Skip (Seq true [Leaf (Linear (tr [1; 2] [2; 1]%R) (Some (tr [1] [3]%R))); Leaf (Act Tanh)]);
  Leaf (Linear (tr [2; 3] [1; 0; 2; (-1); 1; 1]%R) None);
  Leaf (Act Sigmoid)].
Definition xR : tensor R := tr [2; 2] [1; (-2); 3; 1]%R.
Lemma netR_typed : typed netR [2] [2].
Proof.
  apply ty_seq. eapply tys_cons; [|eapply tys_cons; [|eapply tys_cons; [|eapply tys_cons; [|apply tys_nil]]]].
  - apply ty_leaf with (s' := [2]). leaf_dom.
  - apply (ty_skip _ 2 1 []). eapply tys_cons; [|eapply tys_cons; [|apply tys_nil]].
    + apply ty_leaf with (s' := [1]). leaf_dom.
    + apply ty_leaf. leaf_dom.
    + cbn; lia.
  - apply ty_leaf with (s' := [2]). leaf_dom.
  - apply ty_leaf. leaf_dom.
  - cbn; lia.
Qed.
Lemma netR_smooth : smooth netR xR.
Proof.
  cbn [smooth netR smooth_seq leaf_smooth act_smooth]. split.
  - unfold xR, numel. cbn [shape tr fold_right Nat.mul Nat.add]. intros k Hk.
    destruct k as [|[|[|[|k]]]]; cbn [data tr nth]; try lra. lia.
  - intros. repeat split; auto; intros; repeat split; auto.
Qed.
(** Reshape(1,2,2) - MaxPool2d(2) - Flatten at an input with a unique maximum *)
Definition netQ : module R := Seq true [Leaf (Reshape [1; 2; 2]%Z); MaxPool poolB; Leaf Flatten].
Definition xQ : tensor R := tr [1; 4] [1; 5; 3; 4]%R.
Lemma netQ_typed : typed netQ [4] [1].
Proof.
  apply ty_seq. eapply tys_cons; [|eapply tys_cons; [|eapply tys_cons; [|apply tys_nil]]].
  - apply ty_leaf with (s' := [1; 2; 2]). leaf_dom.
  - apply ty_pool with (s' := [1; 1; 1]).
    assert (W : windows_ok 2 2 2 0 1 1). { intros o Ho. destruct o as [|o]; [discriminate|lia]. }
    assert (D : disjoint_windows 2 2 2 0 1 1). { intros o o' z Ho Ho' _ _. lia. }
    unfold pool_typed. repeat split; auto; cbn; lia.
  - apply ty_leaf. leaf_dom.
  - cbn; lia.
Qed.
Lemma netQ_smooth : smooth netQ xQ.
Proof.
  cbn [smooth netQ smooth_seq leaf_smooth]. split; [exact I|]. intros y Ey.
  assert (E : y = tr [1; 1; 2; 2] [1; 5; 3; 4]%R) by (vm_compute in Ey; injection Ey as <-; reflexivity). subst y. split.
  - intros q ch o1 o2 cs Hq Hc Hn. cbn in Hq, Hc. assert (q = 0) by lia. assert (ch = 0) by lia. subst q ch.
    assert (Ho : o1 = 0 /\ o2 = 0).
    { unfold cs in Hn. cbn [dim shape tr nth poolB pk ps pp pd fst snd] in Hn. unfold window in Hn. cbn [seq flat_map] in Hn.
      destruct o1 as [|o1]; [destruct o2 as [|o2]; auto|]; exfalso; apply Hn.
      - repeat match goal with |- context [?a <? 2 + 0] => replace (a <? 2 + 0) with false by (symmetry; apply Nat.ltb_ge; lia) end.
        rewrite !andb_false_r. reflexivity.
      - repeat match goal with |- context [S o1 * 2 + ?a <? 2 + 0] => replace (S o1 * 2 + a <? 2 + 0) with false by (symmetry; apply Nat.ltb_ge; lia) end.
        rewrite !andb_false_r. reflexivity. }
    destruct Ho as [-> ->]. exists 0, 1. unfold cs. vm_compute cells. split; [cbn; auto|].
    intros y2 x2 [E|[E|[E|[E|[]]]]] Ne; injection E as <- <-; try congruence; vm_compute get; lra.
  - intros. repeat split; auto; intros; repeat split; auto.
Qed.
