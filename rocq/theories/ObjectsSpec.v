(** Specification for layer objects that occur at several positions of a network. *)
From Coq Require Import List Arith.
From Verif Require Import Scalar Tensor Abstract Module Objects.
Import ListNotations.

Section Spec.
  Context {K : Type}.

  (** the objects at the positions of the tree, in order; an object used twice is listed twice *)
  Fixpoint ids (m : node K) : list nat :=
    match m with
    | OLeaf o _ | OPool o _ => [o]
    | OSeq o _ ms => o :: flat_map ids ms
    | OSkip o F => o :: ids F
    end.
  (** the same, without the root *)
  Definition inner (m : node K) : list nat := tl (ids m).
  (** the positions that hold an object with mutable attributes: Sequential and MaxPool2d *)
  Fixpoint stateful (m : node K) : list nat :=
    match m with
    | OLeaf _ _ => []
    | OPool o _ => [o]
    | OSeq o _ ms => o :: flat_map stateful ms
    | OSkip _ F => stateful F
    end.
  (** P holds at every Sequential: its identity, add_hooks, its list of modules *)
  Fixpoint every_seq (P : nat -> bool -> list (node K) -> Prop) (m : node K) : Prop :=
    match m with
    | OLeaf _ _ | OPool _ _ => True
    | OSeq o h ms => P o h ms /\ (fix go l := match l with [] => True | m :: l => every_seq P m /\ go l end) ms
    | OSkip _ F => every_seq P F
    end.

  (** H holds, at the objects of m, the hooks that the constructors of the Sequentials of m have
      registered: one for each position when add_hooks is set, none otherwise.  Other Sequentials may
      have registered hooks on them too, and H is arbitrary at other objects. *)
  Definition registered (H : nat -> list nat) (m : node K) : Prop :=
    every_seq (fun o hooks ms => forall z, In z (flat_map ids ms) -> count_occ Nat.eq_dec (H z) o =
                 if hooks then count_occ Nat.eq_dec (map oid ms) z else 0) m.

  (** sharing that does no harm: no Sequential or MaxPool2d occurs twice, no object occurs twice in the
      list of one Sequential, and no object of that list occurs again inside another one of the list *)
  Definition sharing_ok (m : node K) : Prop :=
    NoDup (stateful m) /\
    every_seq (fun o hooks ms => hooks = true ->
                 NoDup (map oid ms) /\ forall c z, In c ms -> In z (inner c) -> ~ In z (map oid ms)) m.

  (** all positions; two positions with the same identity hold the same object *)
  Fixpoint nodes (m : node K) : list (node K) :=
    match m with
    | OLeaf _ _ | OPool _ _ => [m]
    | OSeq _ _ ms => m :: flat_map nodes ms
    | OSkip _ F => m :: nodes F
    end.
  Definition objects (m : node K) : Prop := forall a b, In a (nodes m) -> In b (nodes m) -> oid a = oid b -> a = b.

  (** the positions that hold a layer with parameters *)
  Fixpoint with_params (m : node K) : list nat :=
    match m with
    | OLeaf o l => if Nat.eqb (leaf_n_params l) 0 then [] else [o]
    | OPool _ _ => []
    | OSeq _ _ ms => flat_map with_params ms
    | OSkip _ F => with_params F
    end.

  (** f makes the copies of the objects of m: they are new, the hooks on a copy are those of the
      original, and no constructor ran for the copies, so they have registered no hooks themselves *)
  Definition copies (H : nat -> list nat) (f : nat -> nat) (m : node K) : Prop :=
    (forall o o', In o (ids m) -> In o' (ids m) -> f o = f o' -> o = o') /\
    (forall o, In o (ids m) -> ~ In (f o) (ids m)) /\
    (forall o, In o (ids m) -> H (f o) = H o) /\
    (forall o z, In o (ids m) -> ~ In (f o) (H z)).
  (** a non-empty Sequential with hooks, or a SkipConnection around one *)
  Fixpoint seq_root (m : node K) : Prop :=
    match m with
    | OSeq _ hooks ms => hooks = true /\ ms <> []
    | OSkip _ F => seq_root F
    | _ => False
    end.
End Spec.
