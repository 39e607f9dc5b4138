(** Merging and splitting of adjacent dimensions by reshape. *)
From Coq Require Import String Ascii List Arith ZArith Lia Bool.
From Verif Require Import Scalar Sums Tensor TensorLemmas.
Import ListNotations.
Local Open Scope nat_scope.
Local Open Scope list_scope.

Ltac numels := rewrite ?numel_cons, ?numel_nil in *.

Section Reshape.
  Context {A : Type} (d : A).

  Lemma divmod_lt p n m : p < n * m -> p / m < n /\ p mod m < m /\ p = p / m * m + p mod m.
  Proof.
    intros H. assert (m <> 0) by (intros ->; lia). repeat split.
    - apply Nat.div_lt_upper_bound; lia.
    - now apply Nat.mod_upper_bound.
    - rewrite (Nat.div_mod p m) at 1 by auto. lia.
  Qed.

  Ltac dm := repeat match goal with H : ?p < ?n * ?m |- _ =>
    let E := fresh in assert (E := divmod_lt p n m H); clear H; destruct E as (? & ? & ?);
    generalize dependent (p / m); generalize dependent (p mod m); intros end.
  Lemma merge12_3 b n m (f : nat -> nat -> nat -> A) :
    reshape [b; n * m] (tab3 b n m f) = Ok (tab2 b (n * m) (fun q p => f q (p / m) (p mod m))).
  Proof.
    apply reshape_tab with (phi := fun idx => [i_ 0 idx; i_ 1 idx / m; i_ 1 idx mod m]).
    - numels. nia.
    - intros idx V. didx idx V. cbn [nth]. dm. split; [cbn; auto 9|]. split; [|reflexivity]. cbn [ravel]. numels. lia.
  Qed.
  Lemma merge12_3' b n m k (f : nat -> nat -> nat -> A) : k = n * m ->
    reshape [b; k] (tab3 b n m f) = Ok (tab2 b (n * m) (fun q p => f q (p / m) (p mod m))).
  Proof. intros ->. apply merge12_3. Qed.
  Lemma split1_2 b n m (t : tensor A) : wf t -> shape t = [b; n * m] ->
    reshape [b; n; m] t = Ok (tab3 b n m (fun q i j => get d t [q; i * m + j])).
  Proof.
    intros W S. apply reshape_eq with (d := d) (phi := fun idx => [i_ 0 idx; i_ 1 idx * m + i_ 2 idx]); auto.
    - rewrite S. numels. nia.
    - intros idx V. didx idx V. cbn [nth]. rewrite S. split; [cbn; split; [auto|split; [nia|auto]]|].
      split; [|reflexivity]. cbn [ravel]. numels. lia.
  Qed.
  Lemma merge23_4 b r n m (f : nat -> nat -> nat -> nat -> A) :
    reshape [b; r; n * m] (tab4 b r n m f) = Ok (tab3 b r (n * m) (fun q a p => f q a (p / m) (p mod m))).
  Proof.
    apply reshape_tab with (phi := fun idx => [i_ 0 idx; i_ 1 idx; i_ 2 idx / m; i_ 2 idx mod m]).
    - numels. nia.
    - intros idx V. didx idx V. cbn [nth]. dm. split; [cbn; auto 9|]. split; [|reflexivity]. cbn [ravel]. numels. lia.
  Qed.
  Lemma merge12_4 b n m r (f : nat -> nat -> nat -> nat -> A) :
    reshape [b; n * m; r] (tab4 b n m r f) = Ok (tab3 b (n * m) r (fun q p a => f q (p / m) (p mod m) a)).
  Proof.
    apply reshape_tab with (phi := fun idx => [i_ 0 idx; i_ 1 idx / m; i_ 1 idx mod m; i_ 2 idx]).
    - numels. nia.
    - intros idx V. didx idx V. cbn [nth]. dm. split; [cbn; auto 9|]. split; [|reflexivity]. cbn [ravel]. numels. nia.
  Qed.
  Lemma split1_3 b n m r (t : tensor A) : wf t -> shape t = [b; n * m; r] ->
    reshape [b; n; m; r] t = Ok (tab4 b n m r (fun q i j a => get d t [q; i * m + j; a])).
  Proof.
    intros W S. apply reshape_eq with (d := d) (phi := fun idx => [i_ 0 idx; i_ 1 idx * m + i_ 2 idx; i_ 3 idx]); auto.
    - rewrite S. numels. nia.
    - intros idx V. didx idx V. cbn [nth]. rewrite S. split; [cbn; split; [auto|split; [nia|auto]]|].
      split; [|reflexivity]. cbn [ravel]. numels. nia.
  Qed.
  Lemma split2_3 b r n m (t : tensor A) : wf t -> shape t = [b; r; n * m] ->
    reshape [b; r; n; m] t = Ok (tab4 b r n m (fun q a i j => get d t [q; a; i * m + j])).
  Proof.
    intros W S. apply reshape_eq with (d := d) (phi := fun idx => [i_ 0 idx; i_ 1 idx; i_ 2 idx * m + i_ 3 idx]); auto.
    - rewrite S. numels. nia.
    - intros idx V. didx idx V. cbn [nth]. rewrite S. split; [cbn; repeat split; auto; nia|].
      split; [|reflexivity]. cbn [ravel]. numels. nia.
  Qed.
  Lemma merge12_34_5 b n m n' m' (f : list nat -> A) :
    reshape [b; n * m; n' * m'] (tab [b; n; m; n'; m'] f) =
    Ok (tab3 b (n * m) (n' * m') (fun q p p' => f [q; p / m; p mod m; p' / m'; p' mod m'])).
  Proof.
    apply reshape_tab with (phi := fun idx => [i_ 0 idx; i_ 1 idx / m; i_ 1 idx mod m; i_ 2 idx / m'; i_ 2 idx mod m']).
    - numels. rewrite !Nat.mul_1_r, !Nat.mul_assoc. reflexivity.
    - intros idx V. didx idx V. cbn [nth]. dm. split; [cbn; auto 9|]. split; [|reflexivity]. cbn [ravel]. numels. nia.
  Qed.
End Reshape.
