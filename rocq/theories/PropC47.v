(** C47: the constructor argument add_hooks.  [hooked m] is m built with add_hooks=True everywhere; [h] and [h'] are
    arbitrary hidden states. *)
From Coq Require Import List Arith ZArith Bool.
From Verif Require Import Scalar Tensor Abstract Simple Module HooksSpec Hooks Examples.
Import ListNotations.
Local Open Scope nat_scope.
Local Open Scope list_scope.

Theorem C47_forward : forall (K : Type) (N : Num K) (m : module K) (h h' : st K) (x : tensor K),
  snd (forward m h x) = snd (forward (hooked m) h' x).
Proof. exact (fun K N => fwd_hooked). Qed.
Print Assumptions C47_forward.
Theorem C47_jvp : forall (K : Type) (N : Num K) (m : module K) (h h' : st K) (x : tensor K) (val : option (tensor K)) (v : tensor K) (w : wrt),
  snd (jvp m h x val v w) = snd (jvp (hooked m) h' x val v w).
Proof. exact (fun K N => jvp_hooked). Qed.
Print Assumptions C47_jvp.
Theorem C47_jmp : forall (K : Type) (N : Num K) (m : module K) (h h' : st K) (x M : tensor K) (w : wrt),
  answers m -> snd (jmp m h x None (Some M) w) = snd (jmp (hooked m) h' x None (Some M) w).
Proof. exact (fun K N m h h' x M w => jmp_hooked_none m h h' x M w). Qed.
Print Assumptions C47_jmp.
Theorem C47_jmp_val : forall (K : Type) (N : Num K) (a : bool) (ms : list (module K)) (h h' : st K) (x : tensor K) (val : option (tensor K)) (M : tensor K) (w : wrt),
  answers (Seq a ms) -> snd (jmp (Seq a ms) h x val (Some M) w) = snd (jmp (hooked (Seq a ms)) h' x val (Some M) w).
Proof. exact (fun K N a ms h h' x val M w => jmp_hooked_seq a ms h h' x val M w). Qed.
Print Assumptions C47_jmp_val.
(** the other products need the stored feature maps: on a Sequential without hooks they raise *)
Theorem C47_reverse : forall (K : Type) (N : Num K) (ms : list (module K)) (h : st K) (x : tensor K) (val : option (tensor K)) (y : tensor K) (b : nat) (n : list nat),
  ms <> [] -> shape y = b :: n -> val = Some y \/ val = None /\ snd (forward (Seq false ms) h x) = Ok y ->
  (forall v w, w <> Other -> snd (vjp (Seq false ms) h x val v w) = Raise AttributeError) /\
  (forall M w, w <> Other -> snd (mjp (Seq false ms) h x val M w) = Raise AttributeError) /\
  (forall w, w <> Other -> snd (jacobian (Seq false ms) h x val w) = Raise AttributeError) /\
  (forall M w fd td db, db_ok fd td db = true -> snd (jTmjp (Seq false ms) h x val M w fd td db) = Raise AttributeError) /\
  (forall M fd td db, db_ok fd td db = true -> snd (jmjTp (Seq false ms) h x val M Input fd td db) = Raise AttributeError) /\
  (forall l fd td db, db_ok fd td db = true -> n_params (Seq false ms) <> 0 ->
     snd (jmjTp (Seq false ms) h x val (VL l) Weight fd td db) = Raise AttributeError).
Proof. exact (fun K N ms h x val y b n => reverse_off ms h x val y b n). Qed.
Print Assumptions C47_reverse.

Definition netN : module Z := Seq false [
  Leaf (Linear (tz [2; 2] [1; 2; 3; (-1)]%Z) (Some (tz [2] [1; (-2)]%Z))); Leaf (Act ReLU);
  Skip (Seq false [Leaf (Linear (tz [1; 2] [2; 1]%Z) None)])].
Example C47_case : answers netN /\ hooked netN <> netN /\
  snd (forward netN st0 xA) = Ok (tz [2; 3] [6; 0; 12; 2; 8; 12]%Z) /\
  snd (jvp netN st0 xA None (tz [2; 2] [1; 0; 0; 1]%Z) Input) = Ok (Some (tz [2; 3] [1; 0; 2; 2; (-1); 3]%Z)) /\
  snd (vjp netN st0 xA None (tz [2; 3] [1; 0; 0; 0; 0; 1]%Z) Input) = Raise AttributeError /\
  exists r, snd (vjp (hooked netN) st0 xA None (tz [2; 3] [1; 0; 0; 0; 0; 1]%Z) Input) = Ok (Some r).
Proof.
  split; [cbn; tauto|]. split; [discriminate|]. split; [vm_compute; reflexivity|]. split; [vm_compute; reflexivity|].
  split; [vm_compute; reflexivity|]. eexists. vm_compute. reflexivity.
Qed.
