(** Networks over Z in which a layer object occurs twice. *)
From Coq Require Import List Arith ZArith Lia.
From Verif Require Import Scalar Tensor Conv Abstract Simple LinearLayer ConvLayer PoolLayer Module Domain Objects ObjectsSpec Examples.
Import ListNotations.
Local Open Scope nat_scope.

(** a table of hooks *)
Definition hk (l : list (nat * list nat)) (z : nat) : list nat :=
  match find (fun p => Nat.eqb (fst p) z) l with Some p => snd p | None => [] end.
Definition lin (o : nat) (w : Z) : node Z := OLeaf o (Linear (tz [1; 1] [w]%Z) None).
Definition relu (o : nat) : node Z := OLeaf o (Act ReLU).
Ltac objs := intros a c Ia Ic; cbn in Ia, Ic; repeat match goal with H : _ \/ _ |- _ => destruct H as [<-|H] end; try contradiction; cbn; intros; congruence.
Ltac regs := unfold registered; cbn [every_seq]; repeat split; intros z _; do 12 (destruct z as [|z]; [reflexivity|]); reflexivity.

(** act = nnj.ReLU(); nnj.Sequential(lin, act, lin, act, lin) *)
Definition netT : node Z := OSeq 0 true [lin 1 1%Z; relu 2; lin 3 (-1)%Z; relu 2; lin 4 1%Z].
Definition hT := hk [(1, [0]); (2, [0; 0]); (3, [0]); (4, [0])].
Lemma netT_typed : typed (erase netT) [1] [1].
Proof. apply ty_seq. repeat (eapply tys_cons; [apply ty_leaf with (s' := [1]); leaf_dom|]). apply tys_nil. cbn; lia. Qed.
Lemma netT_objects : objects netT. Proof. objs. Qed.
Lemma netT_registered : registered hT netT. Proof. regs. Qed.
(** three uses: the product with respect to the input is wrong as well *)
Definition netT3 : node Z := OSeq 0 true [relu 2; lin 1 1%Z; relu 2; lin 3 (-1)%Z; relu 2].
Definition hT3 := hk [(1, [0]); (2, [0; 0; 0]); (3, [0])].
Lemma netT3_typed : typed (erase netT3) [1] [1].
Proof. apply ty_seq. repeat (eapply tys_cons; [apply ty_leaf with (s' := [1]); leaf_dom|]). apply tys_nil. cbn; lia. Qed.
Lemma netT3_objects : objects netT3. Proof. objs. Qed.
Lemma netT3_registered : registered hT3 netT3. Proof. regs. Qed.
(** a direct child that is also inside another child *)
Definition netI : node Z := OSeq 0 true [OSeq 1 true [relu 2; lin 3 (-1)%Z]; relu 2; lin 4 1%Z].
Definition hI := hk [(1, [0]); (2, [1; 0]); (3, [1]); (4, [0])].
Lemma netI_typed : typed (erase netI) [1] [1].
Proof.
  apply ty_seq. eapply tys_cons; [apply ty_seq with (s' := [1])|]; repeat (eapply tys_cons; [apply ty_leaf with (s' := [1]); leaf_dom|]); apply tys_nil; cbn; lia.
Qed.
Lemma netI_objects : objects netI. Proof. objs. Qed.
Lemma netI_registered : registered hI netI. Proof. regs. Qed.
(** one block used in two places *)
Definition netK : node Z := OSeq 0 true [OSeq 1 true [OSeq 7 true [lin 9 3%Z]]; OSeq 2 true [OSeq 7 true [lin 9 3%Z]]].
Definition hK := hk [(1, [0]); (2, [0]); (7, [1; 2]); (9, [7])].
Lemma netK_typed : typed (erase netK) [1] [1].
Proof.
  assert (B : typed (erase (OSeq 7 true [lin 9 3%Z])) [1] [1]).
  { apply ty_seq. eapply tys_cons; [apply ty_leaf with (s' := [1]); leaf_dom|]. apply tys_nil; cbn; lia. }
  apply ty_seq. repeat (eapply tys_cons; [apply ty_seq with (s' := [1]); eapply tys_cons; [exact B|]; apply tys_nil; cbn; lia|]). apply tys_nil; cbn; lia.
Qed.
Lemma netK_objects : objects netK. Proof. objs. Qed.
Lemma netK_registered : registered hK netK. Proof. regs. Qed.
(** one MaxPool2d used in two places *)
Definition cfgQ : pool_cfg := Build_pool_cfg (1, 2) (1, 2) (0, 0) (1, 1) false.
Definition netQ : node Z := OSeq 0 true [OSeq 1 true [OPool 5 cfgQ]; OLeaf 6 Flatten;
  OLeaf 7 (Linear (tz [4; 2] [1; 0; (-1); 0; 0; 1; 0; (-1)]%Z) None); OLeaf 8 (Reshape [1; 1; 4]%Z); OSeq 2 true [OPool 5 cfgQ]].
Definition hQ := hk [(1, [0]); (2, [0]); (5, [1; 2]); (6, [0]); (7, [0]); (8, [0])].
Definition xQ : tensor Z := tz [1; 1; 1; 4] [1; 2; 4; 3]%Z.
Lemma cfgQ_typed : pool_typed cfgQ [1; 1; 4] [1; 1; 2].
Proof.
  unfold pool_typed, cfgQ. cbn [pk ps pp pd pceil fst snd]. repeat split; try (cbn; lia).
  - intros o Ho. destruct o; [discriminate|lia].
  - intros o Ho. destruct o as [|[|o]]; [discriminate|discriminate|lia].
  - intros o o' z Ho Ho'. lia.
  - intros o o' z Ho Ho'. destruct o as [|[|o]], o' as [|[|o']]; try lia; vm_compute; intros; repeat match goal with H : _ \/ _ |- _ => destruct H end; subst; try discriminate; try contradiction; auto.
Qed.
Lemma netQ_typed : typed (erase netQ) [1; 1; 4] [1; 1; 2].
Proof.
  apply ty_seq. eapply tys_cons; [apply ty_seq; eapply tys_cons; [apply ty_pool, cfgQ_typed|apply tys_nil; cbn; lia]|].
  eapply tys_cons; [apply ty_leaf with (s' := [2]); leaf_dom|]. eapply tys_cons; [apply ty_leaf with (s' := [4]); leaf_dom|].
  eapply tys_cons; [apply ty_leaf with (s' := [1; 1; 4]); leaf_dom|].
  eapply tys_cons; [apply ty_seq; eapply tys_cons; [apply ty_pool, cfgQ_typed|apply tys_nil; cbn; lia]|]. apply tys_nil; cbn; lia.
Qed.
Lemma netQ_objects : objects netQ. Proof. objs. Qed.
Lemma netQ_registered : registered hQ netQ. Proof. regs. Qed.

(** harmless: one ReLU and one Linear, each in two blocks *)
Definition netH : node Z := OSeq 0 true [OSeq 1 true [lin 8 2%Z; relu 9]; lin 3 (-1)%Z; OSkip 4 (OSeq 2 true [lin 8 2%Z; relu 9])].
Definition hH := hk [(1, [0]); (2, []); (3, [0]); (4, [0]); (8, [1; 2]); (9, [1; 2])].
Lemma netH_typed : typed (erase netH) [1] [2].
Proof.
  apply ty_seq. eapply tys_cons; [apply ty_seq with (s' := [1]); repeat (eapply tys_cons; [apply ty_leaf with (s' := [1]); leaf_dom|]); apply tys_nil; cbn; lia|].
  eapply tys_cons; [apply ty_leaf with (s' := [1]); leaf_dom|].
  eapply tys_cons; [apply (ty_skip _ 1 1 []); repeat (eapply tys_cons; [apply ty_leaf with (s' := [1]); leaf_dom|]); apply tys_nil; cbn; lia|]. apply tys_nil; cbn; lia.
Qed.
Lemma netH_objects : objects netH. Proof. objs. Qed.
Lemma netH_registered : registered hH netH. Proof. regs. Qed.
Lemma netH_sharing : sharing_ok netH.
Proof.
  split; [cbn; repeat constructor; cbn; intros J; repeat destruct J as [J|J]; try discriminate; contradiction|].
  cbn. repeat split; auto; try (repeat constructor; cbn; intros J; repeat destruct J as [J|J]; try discriminate; contradiction).
  all: intros c z Ic; repeat destruct Ic as [<-|Ic]; try contradiction; cbn; intros Iz J; repeat destruct Iz as [<-|Iz]; try contradiction; repeat destruct J as [J|J]; try discriminate; contradiction.
Qed.
