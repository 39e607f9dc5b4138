(** Programs of edits and calls; witnesses over Z. *)
From Coq Require Import List Arith ZArith Lia Bool.
From Verif Require Import Scalar Sums Tensor Conv Abstract Simple LinearLayer ConvLayer PoolLayer Module Domain Jac TreeBase Trees Calls ValArg Examples Edit EditSpec EditProofs EditMain.
Import ListNotations.
Local Open Scope nat_scope.
Local Open Scope list_scope.

Section EditPrograms.
  Context {K} `{CR : CRing K}.
  Notation T := (tensor K).
  Lemma pass_none (c : call K) : given_val c = None -> pass_val None c = c.
  Proof. destruct c; cbn; intros E; try subst val; reflexivity. Qed.
  (** on networks that accept the input, a product without val does not depend on the state *)
  Lemma any_state (ms : list (module K)) s s' b (x : T) c h h' : typed (Seq true ms) s s' -> 0 < b -> wf x -> shape x = b :: s ->
    point c = x -> given_val c = None -> wrt_of c <> Other -> answer (Seq true ms) h c = answer (Seq true ms) h' c.
  Proof.
    intros Ty B W Sx P V O. destruct (fwd_total (Seq true ms) s s' b x Ty B W Sx) as (y & F & _).
    rewrite <- (pass_none c V).
    rewrite <- (history_val (Seq true ms) s s' b x y [] [] c st0 h Ty B W Sx F (Forall_nil _) P O (or_introl eq_refl)).
    now rewrite <- (history_val (Seq true ms) s s' b x y [] [] c st0 h' Ty B W Sx F (Forall_nil _) P O (or_introl eq_refl)).
  Qed.
  Lemma program_forward (ms : list (module K)) p s s' b (x : T) c h : program_ok ms p -> typed (Seq true (list_edits ms p)) s s' ->
    0 < b -> wf x -> shape x = b :: s -> forward_call c = true -> point c = x -> given_val c = None -> wrt_of c = Input ->
    e_answer (exec (construct ms) p) c = answer (Seq true (list_edits ms p)) h c.
  Proof.
    intros O Ty B W Sx F P V I. rewrite forward_mode_input by congruence. unfold net_of. rewrite (proj1 (program_lists ms p O)).
    apply (any_state _ s s' b x); congruence.
  Qed.
  Lemma program_append (ms : list (module K)) p s s' b (x y : T) b' sh c h : only_appends p -> typed (Seq true ms) s s' ->
    0 < b -> wf x -> shape x = b :: s -> listed_call c = true -> point c = x -> given_val c = None -> wrt_of c <> Other ->
    e_answer (exec (construct ms) p) (Forward x) = Ok (VT y) -> shape y = b' :: sh ->
    e_answer (exec (construct ms) p) c = answer (Seq true ms) h (spelled b' (numel sh) c).
  Proof.
    intros O Ty B W Sx F P V I G Sh. destruct (append_program ms p c x y b' sh O F V P G Sh) as [h' ->].
    apply (any_state _ s s' b x); try assumption;
      destruct c as [?|? ? ?|? ? ? ?|? ? [?|] ?|? ? ? ? ? ? ?|? ? ? ?|? ? [?|] ?|? ? [|?|?] ? ? ? ?]; cbn in *; congruence.
  Qed.
  Lemma program_removed (ms : list (module K)) p c : In Removed (map (@e_mark K) (e_ents (exec (construct ms) p))) ->
    listed_call c = true -> given_val c = None -> (forall x val mat w fd td db, c = JmjTp x val mat w fd td db -> w = Input) ->
    exists e, e_answer (exec (construct ms) p) c = Raise e.
  Proof. exact (removed_raises (exec (construct ms) p) c). Qed.
End EditPrograms.

Definition lin22 : module Z := Leaf (Linear (tz [2; 2] [1; 2; 3; (-1)]%Z) None).
Definition relu : module Z := Leaf (Act ReLU).
Definition v22 : tensor Z := tz [1; 2] [1; 1]%Z.
Definition x22 : tensor Z := tz [1; 2] [1; 5]%Z.
(** Linear, then append(ReLU): forward applies the ReLU, jvp too, vjp does not *)
Lemma append_wrong : exists y t t',
  e_answer (exec (construct [lin22]) [Append relu]) (Forward x22) = Ok (VT y) /\ fwd (Seq true [lin22; relu]) x22 = Ok y /\
  e_answer (exec (construct [lin22]) [Append relu]) (Vjp x22 None v22 Input) = Ok (VT t) /\
  answer (Seq true [lin22; relu]) st0 (Vjp x22 None v22 Input) = Ok (VT t') /\ t <> t'.
Proof. do 3 eexists. split; [vm_compute; reflexivity|]. split; [vm_compute; reflexivity|]. split; [vm_compute; reflexivity|]. split; [vm_compute; reflexivity|]. discriminate. Qed.
(** ReLU inserted between two layers *)
Lemma insert_wrong : exists y t t',
  e_answer (exec (construct [lin22; lin22]) [Insert 1 relu]) (Forward x22) = Ok (VT y) /\ fwd (Seq true [lin22; relu; lin22]) x22 = Ok y /\
  e_answer (exec (construct [lin22; lin22]) [Insert 1 relu]) (Vjp x22 None v22 Weight) = Ok (VT t) /\
  answer (Seq true [lin22; relu; lin22]) st0 (Vjp x22 None v22 Weight) = Ok (VT t') /\ t <> t'.
Proof. do 3 eexists. split; [vm_compute; reflexivity|]. split; [vm_compute; reflexivity|]. split; [vm_compute; reflexivity|]. split; [vm_compute; reflexivity|]. discriminate. Qed.
(** a program with all edits and a call *)
Definition prog : list (step Z) := [Call (Vjp x22 None v22 Weight); Insert 1 relu; Append lin22; Del 0; Assign 0 lin22; Call (Forward x22)].
Lemma prog_case : program_ok [lin22; lin22] prog /\ list_edits [lin22; lin22] prog = [lin22; lin22; lin22] /\
  map (@e_mark Z) (e_ents (exec (construct [lin22; lin22]) prog)) = [Added; Removed; Kept; Added] /\
  e_answer (exec (construct [lin22; lin22]) prog) (Vjp x22 None v22 Input) = Raise IndexError /\
  exists t, e_answer (exec (construct [lin22; lin22]) prog) (Jvp x22 None v22 Input) = Ok (VT t).
Proof. split; [cbn; lia|]. split; [reflexivity|]. split; [vm_compute; reflexivity|]. split; [vm_compute; reflexivity|]. eexists. vm_compute. reflexivity. Qed.
Lemma append_case : only_appends [Call (Vjp x22 None v22 Weight); Append relu; Call (Jvp x22 None v22 Input)] /\ typed (Seq true [lin22]) [2] [2] /\
  exists y, e_answer (exec (construct [lin22]) [Call (Vjp x22 None v22 Weight); Append relu; Call (Jvp x22 None v22 Input)]) (Forward x22) = Ok (VT y) /\ shape y = [1; 2].
Proof.
  split; [repeat constructor|]. split; [|eexists; split; vm_compute; reflexivity].
  apply ty_seq. apply tys_cons with (s1 := [2]); [apply ty_leaf; leaf_dom; vm_compute; lia|apply tys_nil; vm_compute; lia].
Qed.
(** an appended layer with parameters: jvp wrt weight raises, although the rebuilt network answers *)
Lemma append_weight_raises : exists t,
  e_answer (exec (construct [lin22]) [Append lin22]) (Jvp x22 None (tz [1; 8] [1; 0; 0; 0; 0; 0; 0; 1]%Z) Weight) = Raise AssertionError /\
  answer (Seq true [lin22; lin22]) st0 (Jvp x22 None (tz [1; 8] [1; 0; 0; 0; 0; 0; 0; 1]%Z) Weight) = Ok (VT t).
Proof. eexists. split; vm_compute; reflexivity. Qed.
