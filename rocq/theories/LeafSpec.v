(** What a layer must satisfy for the tree theorems: every product is the contraction with the layer's
    Jacobian formulas. *)
From Coq Require Import String Ascii List Arith ZArith Lia Bool.
From Verif Require Import Scalar Sums Tensor Conv Abstract Simple LinearLayer ConvLayer PoolLayer Module Spec Jac.
Import ListNotations.
Local Open Scope nat_scope.
Local Open Scope list_scope.

Section LeafSpec.
  Context {K} `{Num K}.
  Notation T := (tensor K).
  (** a weight-wise product exists exactly when there are parameters *)
  Definition wopt {A} (np : nat) (t : A) : option A := if np =? 0 then None else Some t.

  Definition leaf_fwd_spec (l : leaf K) (s s' : list nat) : Prop :=
    forall b x, 0 < b -> wf x -> shape x = b :: s ->
    exists y, leaf_forward l x = Ok y /\ wf y /\ shape y = b :: s'.

  (** [f x y val] for val absent or equal to the layer's output *)
  Definition with_val (l : leaf K) (s : list nat) (f : nat -> T -> option T -> Prop) : Prop :=
    forall b x y val, 0 < b -> wf x -> shape x = b :: s -> leaf_forward l x = Ok y ->
      val = None \/ val = Some y -> f b x val.

  Definition leaf_jac_spec (l : leaf K) (s s' : list nat) : Prop :=
    with_val l s (fun b x val =>
      leaf_jacobian l x val Input = Ok (Some (dense b (numel s') (numel s) (leaf_JX l x))) /\
      leaf_jacobian l x val Weight =
        Ok (wopt (leaf_n_params l) (dense b (numel s') (leaf_n_params l) (leaf_JW l x)))).
  Definition leaf_vjp_spec (l : leaf K) (s s' : list nat) : Prop :=
    with_val l s (fun b x val => forall v, wf v -> shape v = [b; numel s'] ->
      leaf_vjp l x val v Input = Ok (Some (vJ b (numel s') (numel s) (leaf_JX l x) v)) /\
      leaf_vjp l x val v Weight =
        Ok (wopt (leaf_n_params l) (vJ b (numel s') (leaf_n_params l) (leaf_JW l x) v))).
  Definition leaf_mjp_spec (l : leaf K) (s s' : list nat) : Prop :=
    with_val l s (fun b x val => forall r M, 0 < r -> wf M -> shape M = [b; r; numel s'] ->
      leaf_mjp l x val (Some M) Input = Ok (Some (MJ b r (numel s') (numel s) (leaf_JX l x) M)) /\
      leaf_mjp l x val (Some M) Weight =
        Ok (wopt (leaf_n_params l) (MJ b r (numel s') (leaf_n_params l) (leaf_JW l x) M))).
  (** diag_backprop is only ever passed together with both diagonal flags *)
  Definition flags_ok (fd td db : bool) : Prop := db = true -> fd = true /\ td = true.
  Definition leaf_pull_spec (l : leaf K) (s s' : list nat) : Prop :=
    with_val l s (fun b x val => forall fd td db M, flags_ok fd td db -> wf M ->
      shape M = metric_shape fd b (numel s') ->
      leaf_jTmjp l x val (Some M) Input fd td db =
        Ok (Some (pull b (numel s') (numel s) (leaf_JX l x) fd td M)) /\
      leaf_jTmjp l x val (Some M) Weight fd td db =
        Ok (wopt (leaf_n_params l) (pull b (numel s') (leaf_n_params l) (leaf_JW l x) fd td M))).
  Definition leaf_jvp_spec (l : leaf K) (s s' : list nat) : Prop :=
    with_val l s (fun b x val =>
      (forall v, wf v -> shape v = [b; numel s] ->
        leaf_jvp l x val v Input = Ok (Some (Jv b (numel s') (numel s) (leaf_JX l x) v))) /\
      (forall v, wf v -> shape v = [b; leaf_n_params l] ->
        leaf_jvp l x val v Weight =
          Ok (wopt (leaf_n_params l) (Jv b (numel s') (leaf_n_params l) (leaf_JW l x) v)))).
  Definition leaf_jmp_spec (l : leaf K) (s s' : list nat) : Prop :=
    with_val l s (fun b x val => forall c, 0 < c ->
      (forall M, wf M -> shape M = [b; numel s; c] ->
        leaf_jmp l x val (Some M) Input = Ok (Some (JM b (numel s') (numel s) c (leaf_JX l x) M))) /\
      (forall M, wf M -> shape M = [b; leaf_n_params l; c] ->
        leaf_jmp l x val (Some M) Weight =
          Ok (wopt (leaf_n_params l) (JM b (numel s') (leaf_n_params l) c (leaf_JW l x) M)))).
  Definition leaf_push_spec (l : leaf K) (s s' : list nat) : Prop :=
    with_val l s (fun b x val => forall fd td db, flags_ok fd td db ->
      (forall M, wf M -> shape M = metric_shape fd b (numel s) ->
        leaf_jmjTp l x val (Some M) Input fd td db =
          Ok (Some (push b (numel s') (numel s) (leaf_JX l x) fd td M))) /\
      (forall M, wf M -> shape M = metric_shape fd b (leaf_n_params l) ->
        leaf_jmjTp l x val (Some M) Weight fd td db =
          Ok (wopt (leaf_n_params l) (push b (numel s') (leaf_n_params l) (leaf_JW l x) fd td M)))).
End LeafSpec.
