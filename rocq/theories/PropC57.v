(** C57: deep copies of a model. *)
From Coq Require Import List Arith ZArith Lia.
From Verif Require Import Scalar Tensor Conv Abstract Simple LinearLayer ConvLayer PoolLayer Module Spec Domain HooksSpec Objects ObjectsSpec ObjBase ObjFwd ObjMain ObjParams ObjCopy Params Examples ObjWitness ObjCopyWitness.
Import ListNotations.
Local Open Scope nat_scope.

(** C57, the full claim: every method of copy.deepcopy(model) returns what it returns for model.  It
    holds for forward, jvp, jmp with a matrix and get_weight *)
Theorem C57_forward :
  forall (K : Type) (N : Num K) (H : nat -> list nat) (f : nat -> nat) (m : node K) (g g' : heap K) (x : tensor K),
  copies H f m -> snd (oforward H (rename f m) g x) = snd (oforward H m g' x).
Proof. exact (fun K N H f m g g' x _ => copy_forward H f m g g' x). Qed.
Print Assumptions C57_forward.
Theorem C57_jvp :
  forall (K : Type) (N : Num K) (H : nat -> list nat) (f : nat -> nat) (m : node K) (g g' : heap K) (x v : tensor K) (val : option (tensor K)) (w : wrt),
  copies H f m -> snd (ojvp H (rename f m) g x val v w) = snd (ojvp H m g' x val v w).
Proof. exact (fun K N H f m g g' x v val w _ => copy_jvp H f m g g' x v val w). Qed.
Print Assumptions C57_jvp.
Theorem C57_jmp :
  forall (K : Type) (N : Num K) (H : nat -> list nat) (f : nat -> nat) (m : node K) (g g' : heap K) (x M : tensor K) (w : wrt),
  copies H f m -> answers (erase m) -> snd (ojmp H (rename f m) g x None (Some M) w) = snd (ojmp H m g' x None (Some M) w).
Proof. exact (fun K N H f m g g' x M w _ => copy_jmp H f m g g' x M w). Qed.
Print Assumptions C57_jmp.
Theorem C57_weight :
  forall (K : Type) (N : Num K) (H : nat -> list nat) (f : nat -> nat) (m : node K),
  copies H f m -> oget_weight (rename f m) = oget_weight m.
Proof. exact (fun K N H f m => copy_weight H f m). Qed.
Print Assumptions C57_weight.
(** it fails for every other product of every Sequential: no call on the copy returns, with val=None *)
Theorem C57_reverse_raises :
  forall (K : Type) (N : Num K) (H : nat -> list nat) (f : nat -> nat) (m : node K),
  objects m -> copies H f m -> seq_root m -> forall (g : heap K) (x : tensor K) (w : wrt), w <> Other ->
  (forall v r, snd (ovjp H (rename f m) g x None v w) <> Ok r) /\
  (forall v r, snd (omjp H (rename f m) g x None v w) <> Ok r) /\
  (forall r, snd (ojacobian H (rename f m) g x None w) <> Ok r) /\
  (forall v fd td db r, snd (ojTmjp H (rename f m) g x None v w fd td db) <> Ok r) /\
  (forall v fd td db r, snd (ojmjTp H (rename f m) g x None v Input fd td db) <> Ok r).
Proof. exact (fun K N H f m O C R g x w W => copy_raises H f m O C R g x w W). Qed.
Print Assumptions C57_reverse_raises.
(** and every forward pass of the copy adds feature maps to the original, which keeps them *)
Theorem C57_fills_original :
  forall (K : Type) (N : Num K) (H : nat -> list nat) (f : nat -> nat) (o : nat) (ms : list (node K)) (g : heap K) (x y : tensor K),
  registered H (OSeq o true ms) -> sharing_ok (OSeq o true ms) -> copies H f (OSeq o true ms) ->
  snd (oforward H (rename f (OSeq o true ms)) g x) = Ok y ->
  length (h_fm (fst (oforward H (rename f (OSeq o true ms)) g x)) o) = length (h_fm g o) + length ms.
Proof. exact (fun K N H f o ms g x y => copy_fills H f o ms g x y). Qed.
Print Assumptions C57_fills_original.
Example C57_case : objects netH /\ registered hC netH /\ sharing_ok netH /\ copies hC (fun o => 10 + o) netH /\ seq_root netH /\ answers (erase netH) /\
  snd (oforward hC (rename (fun o => 10 + o) netH) heap0 (tz [1; 1] [3]%Z)) = Ok (tz [1; 2] [(-6); 0]%Z) /\
  length (h_fm (fst (oforward hC (rename (fun o => 10 + o) netH) heap0 (tz [1; 1] [3]%Z))) 0) = 3.
Proof.
  split; [exact netH_objects|]. split; [exact netC_registered|]. split; [exact netH_sharing|]. split; [exact netC_copies|].
  split; [now split|]. split; [cbn; tauto|]. split; vm_compute; reflexivity.
Qed.
Theorem C57_refuted : exists (H : nat -> list nat) (f : nat -> nat) (m : node Z) (x v u : tensor Z),
  objects m /\ registered H m /\ sharing_ok m /\ copies H f m /\ typed (erase m) [1] [2] /\
  snd (ovjp H m heap0 x None v Input) = Ok (Some u) /\ snd (ovjp H (rename f m) heap0 x None v Input) = Raise IndexError.
Proof.
  exists hC, (fun o => 10 + o), netH, (tz [1; 1] [3]%Z), (tz [1; 2] [1; 5]%Z). eexists. split; [exact netH_objects|]. split; [exact netC_registered|].
  split; [exact netH_sharing|]. split; [exact netC_copies|]. split; [exact netH_typed|]. split; vm_compute; reflexivity.
Qed.
Print Assumptions C57_refuted.
