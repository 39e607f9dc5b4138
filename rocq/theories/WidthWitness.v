(** Witnesses for C64. *)
From Coq Require Import List Arith ZArith Lia.
From Verif Require Import Scalar Tensor TensorLemmas Conv Abstract Simple Module Domain Jac Calls Width Bench.
Import ListNotations.
Local Open Scope nat_scope.
Local Open Scope list_scope.

Ltac leafty := constructor; cbn; repeat split; auto; unfold numel; cbn; lia.
Lemma accepted_vectors :
  (exists (m : module Z) (x v t : tensor Z), typed m [2] [3] /\ wf x /\ shape x = [1; 2] /\ wf v /\ shape v = [1; 1] /\
     snd (vjp m (init m) x None v Input) = Ok (Some t)) /\
  (exists (m : module Z) (x v t : tensor Z), typed m [2] [1] /\ wf x /\ shape x = [1; 2] /\ wf v /\ shape v = [1; 5] /\
     snd (vjp m (init m) x None v Input) = Ok (Some t)) /\
  (exists (m : module Z) (x v t : tensor Z), typed m [1] [1] /\ wf x /\ shape x = [1; 1] /\ wf v /\ shape v = [1; 5] /\
     snd (vjp m (init m) x None v Input) = Ok (Some t) /\ shape t = [1; 5]) /\
  (exists (m : module Z) (x v t : tensor Z), typed m [2; 2] [4] /\ wf x /\ shape x = [1; 2; 2] /\ wf v /\ shape v = [1; 5] /\
     snd (vjp m (init m) x None v Input) = Ok (Some t)).
Proof.
  split; [|split; [|split]].
  - exists (Leaf (Linear (mkT [3; 2] (repeat 1%Z 6)) None)), (mkT [1; 2] [1; 2]%Z), (mkT [1; 1] [1]%Z). eexists. split; [leafty|]. repeat split; vm_compute; reflexivity.
  - exists (Leaf (Linear (mkT [1; 2] (repeat 1%Z 2)) None)), (mkT [1; 2] [1; 2]%Z), (mkT [1; 5] (repeat 1%Z 5)). eexists. split; [leafty|]. repeat split; vm_compute; reflexivity.
  - exists (Leaf (Act Tanh)), (mkT [1; 1] [1]%Z), (mkT [1; 5] (repeat 1%Z 5)). eexists. split; [leafty|]. repeat split; vm_compute; reflexivity.
  - exists (Leaf Flatten), (mkT [1; 2; 2] (repeat 1%Z 4)), (mkT [1; 5] (repeat 1%Z 5)). eexists. split; [leafty|]. repeat split; vm_compute; reflexivity.
Qed.
Lemma broadcast_target : exists (m : module Z) (x tg g : tensor Z), typed m [2] [1] /\ wf x /\ shape x = [2; 2] /\ wf tg /\ shape tg = [2] /\
  snd (readme_gradient m (init m) x tg) = Ok g /\ n_params m = 3 /\ shape g = [6].
Proof.
  exists (Seq true [Leaf (Linear (mkT [1; 2] [1; 1]%Z) (Some (mkT [1] [1]%Z)))]), (mkT [2; 2] [1; 2; 3; 4]%Z), (mkT [2] [1; 2]%Z).
  eexists. split; [constructor; econstructor; [|constructor; unfold numel; cbn; lia]; leafty|]. repeat split; vm_compute; reflexivity.
Qed.
Lemma rejected_case : let m := Seq true [Leaf (Linear (mkT [3; 2] (repeat 1%Z 6)) None); Leaf (Act ReLU); Leaf (Linear (mkT [2; 3] (repeat 1%Z 6)) None)] in
  let x := mkT [1; 2] [1; 2]%Z in typed m [2] [2] /\ no_single m x /\ ~ reshapes m.
Proof.
  cbv zeta. split; [|split].
  - constructor. apply tys_cons with [3]; [leafty|]. apply tys_cons with [3]; [leafty|]. apply tys_cons with [2]; [leafty|]. constructor; unfold numel; cbn; lia.
  - cbn [no_single plain_seq]. assert (F : forall (A B : tensor Z) r, r = Ok A -> r = Ok B -> B = A) by congruence.
    split; [intros y E; apply (F _ _ _ eq_refl) in E; subst y; vm_compute; discriminate|]. intros y E. apply (F _ _ _ eq_refl) in E. subst y.
    split; [intros y E; apply (F _ _ _ eq_refl) in E; subst y; vm_compute; discriminate|]. intros y E. apply (F _ _ _ eq_refl) in E. subst y.
    split; [intros y E; apply (F _ _ _ eq_refl) in E; subst y; vm_compute; discriminate|]. auto.
  - cbn. tauto.
Qed.
Lemma exact_case : let m := Skip (Seq true [Leaf (Linear (mkT [4; 2] (repeat 1%Z 8)) None)]) in let x := mkT [1; 2] [1; 2]%Z in
  typed m [2] [6] /\ map (width m x) (seq 0 8) = [None; None; None; Some 2; None; None; Some 2; None].
Proof.
  cbv zeta. split; [|vm_compute; reflexivity].
  change [6] with [2 + 4]. constructor. econstructor; [|constructor; unfold numel; cbn; lia]. leafty.
Qed.
Lemma nonsquare_case : let M := mkT [1; 1; 2] [1; 2]%Z in leaf_typed (@Flatten Z) [2] [2] /\ shape M = [1; 1; 2] /\ fwd (Leaf Flatten) (mkT [1; 2] [1; 2]%Z) = Ok (mkT [1; 2] [1; 2]%Z).
Proof. cbv zeta. split; [cbn; repeat split; unfold numel; cbn; lia|]. repeat split. Qed.
