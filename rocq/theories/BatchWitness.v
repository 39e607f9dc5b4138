(** Concrete cases for batch independence. *)
From Coq Require Import String Ascii List Arith ZArith Lia Bool.
From Verif Require Import Scalar Sums Tensor TensorLemmas Conv Abstract Simple LinearLayer ConvLayer PoolLayer Module Spec Domain OpLemmas BatchSpec Batch BatchProofs Examples.
Import ListNotations.
Local Open Scope nat_scope.
Local Open Scope list_scope.

Lemma netA_batchwise : batchwise netA. Proof. cbn. tauto. Qed.
Lemma netB_batchwise : batchwise netB. Proof. cbn. tauto. Qed.
(** two images *)
Definition xB2 : tensor Z := mkT [2; 16] (map (fun k => ((Z.of_nat k * 7) mod 11)%Z) (seq 0 32)).

(** a user-defined layer that doubles its input *)
Definition double : custom Z := {|
  cu_forward := fun x => Ok (emap (fun v => (2 * v)%Z) x);
  cu_jacobian := fun x _ w => match w with
    | Input => Ok (Some (tab3 (hd 0 (shape x)) (numel (tl (shape x))) (numel (tl (shape x))) (fun _ i j => if Nat.eqb i j then 2 else 0)%Z))
    | _ => Ok None end |}.
Lemma double_batchwise : custom_batchwise double.
Proof.
  intros b s n f x y J Hb Wx Sx Hn Hf. split; intros E; cbn in E; injection E as <-; cbn [cu_forward cu_jacobian double]; do 1 f_equal.
  - apply (pick_eq_get b n f _ _ s); [apply wf_emap, wf_pick|cbn; now rewrite Sx|exact Sx|].
    intros q idx Hq V. rewrite !(get_emap (K := Z)); auto.
    + rewrite (get_pick b n f x s) by auto. reflexivity.
    + rewrite Sx. cbn. auto.
    + apply wf_pick.
    + rewrite (shape_pick b n f x s Sx). cbn. auto.
  - rewrite (shape_pick b n f x s Sx), Sx. cbn [hd tl]. f_equal. rewrite (pick_tab3 (K := Z) b n f Hf). reflexivity.
Qed.
Definition netC : module Z := Seq true [Leaf (Linear (tz [2; 2] [1; 2; 3; (-1)]%Z) None); Leaf (Custom double)].
Lemma netC_batchwise : batchwise netC. Proof. cbn. split; auto. split; auto. exact double_batchwise. Qed.
Lemma netC_typed : typed netC [2] [2].
Proof.
  apply ty_seq. eapply tys_cons; [|eapply tys_cons; [|apply tys_nil]].
  - apply ty_leaf with (s' := [2]). leaf_dom; vm_compute; lia.
  - apply ty_leaf. split; [vm_compute; lia|]. split; [vm_compute; lia|]. intros b x Hb Wx Sx. eexists. eexists.
    split; [reflexivity|]. split; [now apply wf_emap|]. split; [exact Sx|]. split; [apply wf_tab|].
    split; [reflexivity|]. intros val _. cbn [cu_jacobian double]. rewrite Sx. split; reflexivity.
  - vm_compute; lia.
Qed.

(** a user-defined layer that subtracts the first sample from all samples is not independent *)
Definition center : custom Z := {|
  cu_forward := fun x => Ok (tab (shape x) (fun idx => (get 0%Z x idx - get 0%Z x (O :: tl idx))%Z));
  cu_jacobian := cu_jacobian double |}.
Lemma center_not_independent : exists (m : module Z) s s' b n f (x y : tensor Z),
  typed m s s' /\ 0 < b /\ wf x /\ shape x = b :: s /\ 0 < n /\ selects n f b /\
  snd (forward m st0 x) = Ok y /\ snd (forward m st0 (pick n f x)) <> Ok (pick n f y).
Proof.
  exists (Leaf (Custom center)), [2], [2], 2, 1, (fun _ => 1), xA, (tz [2; 2] [0; 0; 2; (-3)]%Z).
  split.
  { apply ty_leaf. split; [vm_compute; lia|]. split; [vm_compute; lia|]. intros b x Hb Wx Sx. eexists. eexists.
    split; [reflexivity|]. split; [apply wf_tab|]. split; [exact Sx|]. split; [apply wf_tab|].
    split; [reflexivity|]. intros val _. cbn [cu_jacobian center double]. rewrite Sx. split; reflexivity. }
  split; [lia|]. split; [reflexivity|]. split; [reflexivity|]. split; [lia|]. split; [intros i _; lia|].
  split; [vm_compute; reflexivity|vm_compute; discriminate].
Qed.
