(** Specification of C67: a Linear layer on inputs that are not matrices. *)
From Coq Require Import List Arith Bool.
From Verif Require Import Scalar Sums Tensor Spec.
Import ListNotations.
Local Open Scope nat_scope.
Local Open Scope list_scope.

Section Rank.
  Context {K} `{Num K}.
  Notation gt := (get (@n0 K _)).
  Notation T := (tensor K).

  (** the linear map of one sample: its positions are mapped independently of each other, each by W *)
  Definition block (W : T) (c1 c2 : nat) (q i j : nat) : K :=
    if i / c2 =? j / c1 then gt W [i mod c2; j mod c1] else n0.
  Definition bias_at (bias : option T) (k : nat) : K := match bias with Some t => gt t [k] | None => n0 end.
  Definition raises {A} (r : res A) : Prop := exists e, r = Raise e.
  Definition right_or_raises {A} (r : res A) (t : A) : Prop := r = Ok t \/ raises r.
  (** a result that raises nothing and has the wrong shape *)
  Definition misshaped {A} (mk : T -> A) (r : res A) (s wanted : list nat) : Prop :=
    exists t, r = Ok (mk t) /\ shape t = s /\ s <> wanted.
End Rank.
