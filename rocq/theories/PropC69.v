(** C69: networks whose list of layers is edited after construction. *)
From Coq Require Import List Arith ZArith Bool.
From Verif Require Import Scalar Tensor Abstract Simple Module Domain Calls Edit EditSpec EditProofs EditMain Examples EditWitness.
Import ListNotations.
Local Open Scope nat_scope.
Local Open Scope list_scope.

(** wanted: after any program of append, insert, del, item assignment and calls, model answers as the network built from its current
    layers does.  True of forward and of jvp and jmp (with a matrix) wrt input *)
Theorem C69_forward_partial : forall (K : Type) (N : Num K) (CR : CRing K) (ms : list (module K)) p s s' b (x : tensor K) c h,
  program_ok ms p -> typed (Seq true (list_edits ms p)) s s' -> 0 < b -> wf x -> shape x = b :: s ->
  forward_call c = true -> point c = x -> given_val c = None -> wrt_of c = Input ->
  e_answer (exec (construct ms) p) c = answer (Seq true (list_edits ms p)) h c.
Proof. exact (fun K N CR ms p s s' b x c h => program_forward ms p s s' b x c h). Qed.
Print Assumptions C69_forward_partial.
(** also for inputs that a layer rejects, with the layers in the state they are in *)
Theorem C69_forward_any : forall (K : Type) (N : Num K) (CR : CRing K) (E : edited K) c, forward_call c = true -> wrt_of c <> Weight ->
  e_answer E c = answer (Seq true (mods (running E))) (St [] None (states (running E))) c.
Proof. exact (fun K N CR E c => forward_mode_input E c). Qed.
Print Assumptions C69_forward_any.
(** the two lists of layers after a program: the one that runs is the edited list, the one that the other products use is the
    constructor's argument *)
Theorem C69_lists : forall (K : Type) (N : Num K) (CR : CRing K) (ms : list (module K)) p, program_ok ms p ->
  mods (running (exec (construct ms) p)) = list_edits ms p /\ mods (old_list (exec (construct ms) p)) = ms.
Proof. exact (fun K N CR ms p => program_lists ms p). Qed.
Print Assumptions C69_lists.
(** jvp and jmp wrt weight: right, unless the number of parameters changed, and then an AssertionError *)
Theorem C69_forward_weight : forall (K : Type) (N : Num K) (CR : CRing K) (E : edited K) c, forward_call c = true -> wrt_of c = Weight ->
  e_answer E c = (r <- answer (Seq true (mods (running E))) (St [] None (states (running E))) c ;;
                  if n_params (Seq true (mods (running E))) =? n_params (Seq true (mods (old_list E))) then Ok r else Raise AssertionError).
Proof. exact (fun K N CR E c => forward_mode_weight_params E c). Qed.
Print Assumptions C69_forward_weight.
Example C69_case : program_ok [lin22; lin22] prog /\ list_edits [lin22; lin22] prog = [lin22; lin22; lin22] /\
  map (@e_mark Z) (e_ents (exec (construct [lin22; lin22]) prog)) = [Added; Removed; Kept; Added] /\
  e_answer (exec (construct [lin22; lin22]) prog) (Vjp x22 None v22 Input) = Raise IndexError /\
  exists t, e_answer (exec (construct [lin22; lin22]) prog) (Jvp x22 None v22 Input) = Ok (VT t).
Proof. exact prog_case. Qed.
Example C69_weight_case : exists t,
  e_answer (exec (construct [lin22]) [Append lin22]) (Jvp x22 None (tz [1; 8] [1; 0; 0; 0; 0; 0; 0; 1]%Z) Weight) = Raise AssertionError /\
  answer (Seq true [lin22; lin22]) st0 (Jvp x22 None (tz [1; 8] [1; 0; 0; 0; 0; 0; 0; 1]%Z) Weight) = Ok (VT t).
Proof. exact append_weight_raises. Qed.
(** the other products, when a layer of the constructor was removed or replaced: they raise (jmjTp: wrt input) *)
Theorem C69_removed : forall (K : Type) (N : Num K) (CR : CRing K) (ms : list (module K)) p c,
  In Removed (map (@e_mark K) (e_ents (exec (construct ms) p))) -> listed_call c = true -> given_val c = None ->
  (forall x val mat w fd td db, c = JmjTp x val mat w fd td db -> w = Input) ->
  exists e, e_answer (exec (construct ms) p) c = Raise e.
Proof. exact (fun K N CR ms p c => program_removed ms p c). Qed.
Print Assumptions C69_removed.
(** when layers were only appended: whatever these are, every other product silently is that of the network without them, as long as
    the forward pass through all layers returns.  A missing matrix stands for the identity of the size of the whole output *)
Theorem C69_append : forall (K : Type) (N : Num K) (CR : CRing K) (ms : list (module K)) p s s' b (x y : tensor K) b' sh c h,
  only_appends p -> typed (Seq true ms) s s' -> 0 < b -> wf x -> shape x = b :: s ->
  listed_call c = true -> point c = x -> given_val c = None -> wrt_of c <> Other ->
  e_answer (exec (construct ms) p) (Forward x) = Ok (VT y) -> shape y = b' :: sh ->
  e_answer (exec (construct ms) p) c = answer (Seq true ms) h (spelled b' (numel sh) c).
Proof. exact (fun K N CR ms p s s' b x y b' sh c h => program_append ms p s s' b x y b' sh c h). Qed.
Print Assumptions C69_append.
Example C69_append_case : only_appends [Call (Vjp x22 None v22 Weight); Append relu; Call (Jvp x22 None v22 Input)] /\ typed (Seq true [lin22]) [2] [2] /\
  exists y, e_answer (exec (construct [lin22]) [Call (Vjp x22 None v22 Weight); Append relu; Call (Jvp x22 None v22 Input)]) (Forward x22) = Ok (VT y) /\ shape y = [1; 2].
Proof. exact append_case. Qed.
(** so that the wanted equation is false after append and after insert *)
Theorem C69_refuted_append : exists (ms : list (module Z)) m x v y t t',
  e_answer (exec (construct ms) [Append m]) (Forward x) = Ok (VT y) /\ fwd (Seq true (ms ++ [m])) x = Ok y /\
  e_answer (exec (construct ms) [Append m]) (Vjp x None v Input) = Ok (VT t) /\
  answer (Seq true (ms ++ [m])) st0 (Vjp x None v Input) = Ok (VT t') /\ t <> t'.
Proof. exact (ex_intro _ [lin22] (ex_intro _ relu (ex_intro _ x22 (ex_intro _ v22 append_wrong)))). Qed.
Print Assumptions C69_refuted_append.
Theorem C69_refuted_insert : exists (a c : module Z) m x v y t t',
  e_answer (exec (construct [a; c]) [Insert 1 m]) (Forward x) = Ok (VT y) /\ fwd (Seq true [a; m; c]) x = Ok y /\
  e_answer (exec (construct [a; c]) [Insert 1 m]) (Vjp x None v Weight) = Ok (VT t) /\
  answer (Seq true [a; m; c]) st0 (Vjp x None v Weight) = Ok (VT t') /\ t <> t'.
Proof. exact (ex_intro _ lin22 (ex_intro _ lin22 (ex_intro _ relu (ex_intro _ x22 (ex_intro _ v22 insert_wrong))))). Qed.
Print Assumptions C69_refuted_insert.
