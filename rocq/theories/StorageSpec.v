(** Calls to a model in the storage model (Storage.v), and what a caller can see of them. *)
From Coq Require Import List Arith ZArith.
From Verif Require Import Scalar Tensor Conv Abstract Simple LinearLayer ConvLayer PoolLayer Module Storage.
Import ListNotations.
Local Open Scope nat_scope.
Local Open Scope list_scope.

(** a call of one of the public methods, on tensors of type A and matrices, lists of matrices or None of type V *)
Inductive call (A V : Type) :=
| CForward (x : A)
| CJacobian (x : A) (val : option A) (w : wrt)
| CJvp (x : A) (val : option A) (v : A) (w : wrt)
| CVjp (x : A) (val : option A) (v : A) (w : wrt)
| CJmp (x : A) (val m : option A) (w : wrt)
| CMjp (x : A) (val m : option A) (w : wrt)
| CJmjTp (x : A) (val : option A) (m : V) (w : wrt) (fd td db : bool)
| CJTmjp (x : A) (val : option A) (m : V) (w : wrt) (fd td db : bool).
Arguments CForward {A V}. Arguments CJacobian {A V}. Arguments CJvp {A V}. Arguments CVjp {A V}.
Arguments CJmp {A V}. Arguments CMjp {A V}. Arguments CJmjTp {A V}. Arguments CJTmjp {A V}.

Definition cmap {A V A' V'} (f : A -> A') (h : V -> V') (c : call A V) : call A' V' :=
  match c with
  | CForward x => CForward (f x)
  | CJacobian x val w => CJacobian (f x) (option_map f val) w
  | CJvp x val v w => CJvp (f x) (option_map f val) (f v) w
  | CVjp x val v w => CVjp (f x) (option_map f val) (f v) w
  | CJmp x val m w => CJmp (f x) (option_map f val) (option_map f m) w
  | CMjp x val m w => CMjp (f x) (option_map f val) (option_map f m) w
  | CJmjTp x val m w fd td db => CJmjTp (f x) (option_map f val) (h m) w fd td db
  | CJTmjp x val m w fd td db => CJTmjp (f x) (option_map f val) (h m) w fd td db
  end.

Section Spec.
  Context {K} `{Num K}.
  Notation T := (tensor K).
  Notation mem := (mem K).

  (** *** The call in Module.v, where tensors are values *)
  Definition vrun (m : module K) (s : st K) (c : call T (value K)) : st K * res (value K) :=
    match c with
    | CForward x => let '(s, r) := forward m s x in (s, r <- r ;; Ok (VT r))
    | CJacobian x val w => let '(s, r) := jacobian m s x val w in (s, r <- r ;; Ok (of_opt r))
    | CJvp x val v w => let '(s, r) := jvp m s x val v w in (s, r <- r ;; Ok (of_opt r))
    | CVjp x val v w => let '(s, r) := vjp m s x val v w in (s, r <- r ;; Ok (of_opt r))
    | CJmp x val a w => let '(s, r) := jmp m s x val a w in (s, r <- r ;; Ok (of_opt r))
    | CMjp x val a w => let '(s, r) := mjp m s x val a w in (s, r <- r ;; Ok (of_opt r))
    | CJmjTp x val a w fd td db => jmjTp m s x val a w fd td db
    | CJTmjp x val a w fd td db => jTmjp m s x val a w fd td db
    end.
  (** *** The call with storages *)
  Definition hrun (cg : ref -> bool) (m : module K) (g : mem) (s : hst) (c : call ref hvalue)
    : mem * hst * res hvalue :=
    match c with
    | CForward x => let '(g, s, r) := hforward cg m g s x in (g, s, r <- r ;; Ok (HT r))
    | CJacobian x val w => let '(g, s, r) := hjacobian cg m g s x val w in (g, s, r <- r ;; Ok (hof_opt r))
    | CJvp x val v w => let '(g, s, r) := hjvp cg m g s x val v w in (g, s, r <- r ;; Ok (hof_opt r))
    | CVjp x val v w => let '(g, s, r) := hvjp cg m g s x val v w in (g, s, r <- r ;; Ok (hof_opt r))
    | CJmp x val a w => let '(g, s, r) := hjmp cg m g s x val a w in (g, s, r <- r ;; Ok (hof_opt r))
    | CMjp x val a w => let '(g, s, r) := hmjp cg m g s x val a w in (g, s, r <- r ;; Ok (hof_opt r))
    | CJmjTp x val a w fd td db => hjmjTp cg m g s x val a w fd td db
    | CJTmjp x val a w fd td db => hjTmjp cg m g s x val a w fd td db
    end.
  (** what a call is given and what it returns, read in a memory *)
  Definition creads (g : mem) (c : call ref hvalue) : call T (value K) := cmap (rd g) (vl g) c.
  Definition rreads (g : mem) (r : res hvalue) : res (value K) := r <- r ;; Ok (vl g r).

  (** *** Storages in use *)
  Definition olocs (o : option ref) : list nat := match o with Some r => [rl r] | None => [] end.
  (** the input *)
  Definition cx (c : call ref hvalue) : ref :=
    match c with
    | CForward x | CJacobian x _ _ | CJvp x _ _ _ | CVjp x _ _ _ | CJmp x _ _ _ | CMjp x _ _ _
    | CJmjTp x _ _ _ _ _ _ | CJTmjp x _ _ _ _ _ _ => x
    end.
  Definition cval (c : call ref hvalue) : option ref :=
    match c with
    | CForward _ => None
    | CJacobian _ val _ | CJvp _ val _ _ | CVjp _ val _ _ | CJmp _ val _ _ | CMjp _ val _ _
    | CJmjTp _ val _ _ _ _ _ | CJTmjp _ val _ _ _ _ _ => val
    end.
  (** the vector or matrix that is multiplied *)
  Definition carg (c : call ref hvalue) : hvalue :=
    match c with
    | CForward _ | CJacobian _ _ _ => HN
    | CJvp _ _ v _ | CVjp _ _ v _ => HT v
    | CJmp _ _ m _ | CMjp _ _ m _ => hof_opt m
    | CJmjTp _ _ m _ _ _ _ | CJTmjp _ _ m _ _ _ _ => m
    end.
  Definition cwrt (c : call ref hvalue) : wrt :=
    match c with
    | CForward _ => Other
    | CJacobian _ _ w | CJvp _ _ _ w | CVjp _ _ _ w | CJmp _ _ _ w | CMjp _ _ _ w
    | CJmjTp _ _ _ w _ _ _ | CJTmjp _ _ _ w _ _ _ => w
    end.
  Definition product (c : call ref hvalue) : Prop := match c with CForward _ => False | _ => True end.
  Definition clocs (c : call ref hvalue) : list nat := rl (cx c) :: olocs (cval c) ++ vlocs (carg c).
  (** tensors exist in the memory *)
  Definition live (g : mem) (l : list nat) : Prop := forall i, In i l -> i < len g.
  Definition rlocs (r : res hvalue) : list nat := match r with Ok v => vlocs v | Raise _ => [] end.

  (** no view of a parameter, and its entries are different positions of its storage (torch refuses in-place
      operations on the others) *)
  Definition ordinary (g : mem) (r : ref) : Prop :=
    par r = false /\ NoDup (data (rix r)) /\
    (forall o, In o (data (rix r)) -> exists i, o = Some i /\ i < List.length (store g (rl r))).

  (** *** A session: calls made one after the other on one model, each with tensors that exist then *)
  Inductive session (cg : ref -> bool) (m : module K) :
    mem -> hst -> list (call ref hvalue) -> mem -> hst -> list (res hvalue) -> Prop :=
  | s_end g s : session cg m g s [] g s []
  | s_call g s c cs g1 s1 r g2 s2 rs : live g (clocs c) -> hrun cg m g s c = (g1, s1, r) ->
      session cg m g1 s1 cs g2 s2 rs -> session cg m g s (c :: cs) g2 s2 (r :: rs).
  Fixpoint vsession (m : module K) (s : st K) (cs : list (call T (value K))) : st K * list (res (value K)) :=
    match cs with
    | [] => (s, [])
    | c :: cs => let '(s, r) := vrun m s c in let '(s, rs) := vsession m s cs in (s, r :: rs)
    end.

  (** *** A session in which the caller also creates tensors and changes tensors in place *)
  (** The storages the caller may write to.  A call takes away the storage of its input x, which the model keeps
      from then on, and a product gives the storage of its result, unless that is its argument's. *)
  Definition mine (c : call ref hvalue) (r : res hvalue) (free : list nat) : list nat :=
    filter (fun l => negb (Nat.eqb l (rl (cx c))))
      (free ++ match c with
               | CForward _ => []
               | _ => filter (fun l => negb (existsb (Nat.eqb l) (vlocs (carg c)))) (rlocs r)
               end).
  (** the calls and the results are recorded as they read when the call is made and when it returns *)
  Inductive program (cg : ref -> bool) (m : module K) :
    mem -> hst -> list nat -> list (call T (value K)) -> mem -> hst -> list (res (value K)) -> Prop :=
  | p_end g s free : program cg m g s free [] g s []
  | p_call g s free c cs g1 s1 r g2 s2 rs : live g (clocs c) -> hrun cg m g s c = (g1, s1, r) ->
      program cg m g1 s1 (mine c r free) cs g2 s2 rs ->
      program cg m g s free (creads g c :: cs) g2 s2 (rreads g1 r :: rs)
  | p_new g s free t cs g2 s2 rs :
      program cg m (fst (alloc g t)) s (rl (snd (alloc g t)) :: free) cs g2 s2 rs ->
      program cg m g s free cs g2 s2 rs
  | p_write g s free a vs cs g2 s2 rs : In (rl a) free -> par a = false ->
      program cg m (write g a vs) s free cs g2 s2 rs -> program cg m g s free cs g2 s2 rs.
End Spec.
