(** Vocabulary for networks edited after construction: programs of edits and calls, and the plain list of layers they describe. *)
From Coq Require Import List Arith ZArith Lia Bool.
From Verif Require Import Scalar Tensor Conv Abstract Simple Module Calls Edit.
Import ListNotations.
Local Open Scope nat_scope.
Local Open Scope list_scope.

Section EditSpec.
  Context {K} `{Num K}.
  Notation T := (tensor K).

  Definition e_opt (p : edited K * res (option T)) : edited K * res (value K) := (fst p, bind (snd p) (fun r => Ok (of_opt r))).
  Definition e_perform (E : edited K) (c : call K) : edited K * res (value K) :=
    match c with
    | Forward x => (fst (e_forward E x), bind (snd (e_forward E x)) (fun y => Ok (VT y)))
    | Jacobian x val w => e_opt (e_jacobian E x val w)
    | Jvp x val v w => e_opt (e_jvp E x val v w)
    | Jmp x val mat w => e_opt (e_jmp E x val mat w)
    | JmjTp x val mat w fd td db => e_jmjTp E x val mat w fd td db
    | Vjp x val v w => e_opt (e_vjp E x val v w)
    | Mjp x val mat w => e_opt (e_mjp E x val mat w)
    | JTmjp x val mat w fd td db => e_jTmjp E x val mat w fd td db
    end.
  Definition e_answer (E : edited K) (c : call K) : res (value K) := snd (e_perform E c).

  (** a program: edits of the list of layers and calls, whether or not these raise *)
  Inductive step := Append (m : module K) | Insert (i : nat) (m : module K) | Del (i : nat) | Assign (i : nat) (m : module K) | Call (c : call K).
  Definition do_step (E : edited K) (s : step) : edited K :=
    match s with
    | Append m => append m E
    | Insert i m => insert i m E
    | Del i => delete i E
    | Assign i m => assign i m E
    | Call c => fst (e_perform E c)
    end.
  Definition exec (E : edited K) (p : list step) : edited K := fold_left do_step p E.
  (** the same edits on a list *)
  Definition list_step (ms : list (module K)) (s : step) : list (module K) :=
    match s with
    | Append m => ms ++ [m]
    | Insert i m => firstn i ms ++ m :: skipn i ms
    | Del i => firstn i ms ++ skipn (S i) ms
    | Assign i m => firstn i ms ++ m :: skipn (S i) ms
    | Call _ => ms
    end.
  Definition list_edits (ms : list (module K)) (p : list step) : list (module K) := fold_left list_step p ms.
  (** the indices of the edits exist *)
  Definition step_ok (ms : list (module K)) (s : step) : Prop :=
    match s with Insert i _ => i <= length ms | Del i | Assign i _ => i < length ms | _ => True end.
  Fixpoint program_ok (ms : list (module K)) (p : list step) : Prop :=
    match p with [] => True | s :: p => step_ok ms s /\ program_ok (list_step ms s) p end.
  Definition only_appends (p : list step) : Prop := Forall (fun s => match s with Append _ | Call _ => True | _ => False end) p.

  (** a Sequential of the given layer objects *)
  Definition net_of (es : list (lobj K)) : module K := Seq true (mods es).
  Definition state_of (es : list (lobj K)) : st K := St [] None (states es).
  (** forward, and jvp and jmp with a matrix *)
  Definition forward_call (c : call K) : bool :=
    match c with Forward _ | Jvp _ _ _ _ | Jmp _ _ (Some _) _ => true | _ => false end.
  (** the other products *)
  Definition listed_call (c : call K) : bool := negb (forward_call c).
  (** the same call with the identity matrix written out, for an output of shape b :: s' *)
  Definition spelled (b n : nat) (c : call K) : call K :=
    match c with
    | Jacobian x val w | Mjp x val None w | Jmp x val None w => Mjp x val (Some (eye_repeat b n)) w
    | JTmjp x val VNone w fd td db => JTmjp x val (VT (ones [b; n])) w (fd || negb db) td db
    | c => c
    end.
End EditSpec.
Arguments step K : clear implicits.
