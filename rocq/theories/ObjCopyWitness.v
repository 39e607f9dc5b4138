(** A network over Z and its deep copy (identities moved by 10). *)
From Coq Require Import List Arith ZArith Lia.
From Verif Require Import Scalar Tensor Module Domain Objects ObjectsSpec Examples ObjWitness.
Import ListNotations.
Local Open Scope nat_scope.

Definition hC := hk [(1, [0]); (2, []); (3, [0]); (4, [0]); (8, [1; 2]); (9, [1; 2]);
                     (11, [0]); (12, []); (13, [0]); (14, [0]); (18, [1; 2]); (19, [1; 2])].
Ltac ins := repeat match goal with H : In _ _ |- _ => cbn in H | H : _ \/ _ |- _ => destruct H as [<-|H] end; try contradiction.
Lemma netC_registered : registered hC netH.
Proof. unfold registered. cbn [every_seq]. repeat split; intros z Iz; ins; reflexivity. Qed.
Lemma netC_copies : copies hC (fun o => 10 + o) netH.
Proof.
  split; [intros; lia|]. split; [intros o Io J; ins; lia|]. split; [intros o Io; ins; reflexivity|].
  intros o z Io J. assert (B : forall p, In p (hC z) -> p < 10).
  { clear. intros p. do 20 (destruct z as [|z]; [cbn; intuition lia|]). cbn. contradiction. }
  apply B in J. lia.
Qed.
