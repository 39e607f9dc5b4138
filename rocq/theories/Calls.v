(** A program that uses a model: a list of method calls on one module object.  Python keeps the attributes that a
    call wrote before it raised, so a call yields the state after it and a result or an exception. *)
From Coq Require Import List Arith Lia Bool.
From Verif Require Import Scalar Tensor Abstract Simple LinearLayer ConvLayer PoolLayer Module.
Import ListNotations.
Local Open Scope nat_scope.
Local Open Scope list_scope.

Section Calls.
  Context {K} `{Num K}.
  Notation T := (tensor K).

  (** the public methods of abstract_jacobian.py:16-232 with all their arguments, and model(x) *)
  Inductive call :=
  | Forward (x : T)
  | Jacobian (x : T) (val : option T) (w : wrt)
  | Jvp (x : T) (val : option T) (v : T) (w : wrt)
  | Jmp (x : T) (val : option T) (mat : option T) (w : wrt)
  | JmjTp (x : T) (val : option T) (mat : value K) (w : wrt) (fd td db : bool)
  | Vjp (x : T) (val : option T) (v : T) (w : wrt)
  | Mjp (x : T) (val : option T) (mat : option T) (w : wrt)
  | JTmjp (x : T) (val : option T) (mat : value K) (w : wrt) (fd td db : bool).

  Definition opt_result (p : st K * res (option T)) : st K * res (value K) := (fst p, bind (snd p) (fun r => Ok (of_opt r))).
  Definition perform (m : module K) (s : st K) (c : call) : st K * res (value K) :=
    match c with
    | Forward x => (fst (forward m s x), bind (snd (forward m s x)) (fun y => Ok (VT y)))
    | Jacobian x val w => opt_result (jacobian m s x val w)
    | Jvp x val v w => opt_result (jvp m s x val v w)
    | Jmp x val mat w => opt_result (jmp m s x val mat w)
    | JmjTp x val mat w fd td db => jmjTp m s x val mat w fd td db
    | Vjp x val v w => opt_result (vjp m s x val v w)
    | Mjp x val mat w => opt_result (mjp m s x val mat w)
    | JTmjp x val mat w fd td db => jTmjp m s x val mat w fd td db
    end.
  (** the state after a list of calls, whether or not they raised *)
  Definition run (m : module K) (s : st K) (cs : list call) : st K := fold_left (fun s c => fst (perform m s c)) cs s.
  Definition answer (m : module K) (s : st K) (c : call) : res (value K) := snd (perform m s c).

  (** the state of a freshly constructed module tree: sequential.py:23, maxpool2d.py:14 *)
  Fixpoint init (m : module K) : st K :=
    match m with
    | Leaf _ | MaxPool _ => st0
    | Seq _ ms => St [] None (map init ms)
    | Skip F => St [] None [init F]
    end.

  (** the input, the val argument and the wrt argument of a call *)
  Definition point (c : call) : T :=
    match c with
    | Forward x | Jacobian x _ _ | Jvp x _ _ _ | Jmp x _ _ _ | JmjTp x _ _ _ _ _ _ | Vjp x _ _ _ | Mjp x _ _ _ | JTmjp x _ _ _ _ _ _ => x
    end.
  Definition pass_val (val : option T) (c : call) : call :=
    match c with
    | Forward x => Forward x
    | Jacobian x _ w => Jacobian x val w
    | Jvp x _ v w => Jvp x val v w
    | Jmp x _ mat w => Jmp x val mat w
    | JmjTp x _ mat w fd td db => JmjTp x val mat w fd td db
    | Vjp x _ v w => Vjp x val v w
    | Mjp x _ mat w => Mjp x val mat w
    | JTmjp x _ mat w fd td db => JTmjp x val mat w fd td db
    end.
  Definition given_val (c : call) : option T :=
    match c with
    | Forward x => None
    | Jacobian _ val _ | Jvp _ val _ _ | Jmp _ val _ _ | JmjTp _ val _ _ _ _ _ | Vjp _ val _ _ | Mjp _ val _ _ | JTmjp _ val _ _ _ _ _ => val
    end.
  Definition wrt_of (c : call) : wrt :=
    match c with
    | Forward x => Input
    | Jacobian _ _ w | Jvp _ _ _ w | Jmp _ _ _ w | JmjTp _ _ _ w _ _ _ | Vjp _ _ _ w | Mjp _ _ _ w | JTmjp _ _ _ w _ _ _ => w
    end.
  (** the reverse-mode methods *)
  Definition backward (c : call) : bool :=
    match c with Jacobian _ _ _ | Vjp _ _ _ _ | Mjp _ _ _ _ | JTmjp _ _ _ _ _ _ _ => true | _ => false end.
  (** jacobian, mjp and jmp without a matrix *)
  Definition whole_jacobian (c : call) : bool :=
    match c with Jacobian _ _ _ | Jmp _ _ None _ | Mjp _ _ None _ => true | _ => false end.
  Definition is_skip (m : module K) : bool := match m with Skip _ => true | _ => false end.
End Calls.
Arguments call K : clear implicits.
