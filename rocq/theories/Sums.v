(** Lemmas about finite sums over a commutative ring. *)
From Coq Require Import List Arith ZArith Lia Bool.
From Verif Require Import Scalar.
Import ListNotations.
Local Open Scope num_scope.

Section Sums.
  Context {K} `{CR : CRing K}.
  Add Ring Kring : (cring : ring_theory n0 n1 nadd nmul nsub nopp (@eq K)).
  Implicit Types f g : nat -> K.

  Lemma bsum_ext n f g : (forall i, (i < n)%nat -> f i = g i) -> bsum n f = bsum n g.
  Proof.
    induction n as [|n IH]; cbn; intros E; [reflexivity|].
    rewrite IH by (intros; apply E; lia). now rewrite E by lia.
  Qed.
  Lemma bsum_0 n f : (forall i, (i < n)%nat -> f i = n0) -> bsum n f = n0.
  Proof.
    induction n as [|n IH]; cbn; intros E; [reflexivity|].
    rewrite IH, E by (intros; try apply E; lia). ring.
  Qed.
  Lemma bsum_add n f g : bsum n (fun i => f i + g i) = bsum n f + bsum n g.
  Proof. induction n as [|n IH]; cbn; [ring|]. rewrite IH; ring. Qed.
  Lemma bsum_sub n f g : bsum n (fun i => f i - g i) = bsum n f - bsum n g.
  Proof. induction n as [|n IH]; cbn; [ring|]. rewrite IH; ring. Qed.
  Lemma bsum_opp n f : bsum n (fun i => - f i) = - bsum n f.
  Proof. induction n as [|n IH]; cbn; [ring|]. rewrite IH; ring. Qed.
  Lemma bsum_mul_l n a f : bsum n (fun i => a * f i) = a * bsum n f.
  Proof. induction n as [|n IH]; cbn; [ring|]. rewrite IH; ring. Qed.
  Lemma bsum_mul_r n a f : bsum n (fun i => f i * a) = bsum n f * a.
  Proof. induction n as [|n IH]; cbn; [ring|]. rewrite IH; ring. Qed.
  Lemma bsum_swap n m (f : nat -> nat -> K) :
    bsum n (fun i => bsum m (fun j => f i j)) = bsum m (fun j => bsum n (fun i => f i j)).
  Proof.
    induction n as [|n IH]; cbn; [now rewrite bsum_0|].
    rewrite IH. now rewrite <- bsum_add.
  Qed.
  Lemma bsum_single n k f :
    (k < n)%nat -> (forall i, (i < n)%nat -> i <> k -> f i = n0) -> bsum n f = f k.
  Proof.
    induction n as [|n IH]; intros Hk E; [lia|]. cbn.
    destruct (Nat.eq_dec n k) as [->|Hn].
    - rewrite bsum_0 by (intros; apply E; lia). ring.
    - rewrite IH, (E n) by (intros; try apply E; lia). ring.
  Qed.
  Lemma bsum_app n m f :
    bsum (n + m) f = bsum n f + bsum m (fun i => f (n + i)%nat).
  Proof.
    induction m as [|m IH]; [rewrite Nat.add_0_r; cbn; ring|].
    rewrite Nat.add_succ_r. cbn. rewrite IH. ring.
  Qed.
  Lemma bsum_split n k f : (k <= n)%nat ->
    bsum n f = bsum k f + bsum (n - k) (fun i => f (k + i)%nat).
  Proof. intros Hk. replace n with (k + (n - k))%nat at 1 by lia. apply bsum_app. Qed.
  (** sum over a flattened pair index *)
  Lemma bsum_prod n m f :
    bsum (n * m) f = bsum n (fun i => bsum m (fun j => f (i * m + j)%nat)).
  Proof.
    induction n as [|n IH]; [reflexivity|].
    replace (S n * m)%nat with (n * m + m)%nat by lia.
    rewrite bsum_app, IH. reflexivity.
  Qed.
  Lemma bsum_1 f : bsum 1 f = f 0%nat.
  Proof. cbn. ring. Qed.
  Lemma bsum_rev n f : bsum n f = bsum n (fun i => f (n - 1 - i)%nat).
  Proof.
    induction n as [|n IH]; [reflexivity|].
    replace (bsum (S n) (fun i => f (S n - 1 - i)%nat))
      with (bsum (1 + n) (fun i => f (S n - 1 - i)%nat)) by reflexivity.
    rewrite bsum_app, bsum_1. cbn [bsum]. rewrite IH.
    replace (S n - 1 - 0)%nat with n by lia.
    rewrite (bsum_ext n (fun i => f (S n - 1 - (1 + i))%nat) (fun i => f (n - 1 - i)%nat)).
    2:{ intros i Hi. f_equal. lia. }
    ring.
  Qed.

  (** Kronecker delta *)
  Definition delta (i j : nat) : K := if Nat.eqb i j then n1 else n0.
  Lemma delta_refl i : delta i i = n1.
  Proof. unfold delta; now rewrite Nat.eqb_refl. Qed.
  Lemma delta_neq i j : i <> j -> delta i j = n0.
  Proof. unfold delta; intros E; apply Nat.eqb_neq in E; now rewrite E. Qed.
  Lemma delta_sym i j : delta i j = delta j i.
  Proof. unfold delta; now rewrite Nat.eqb_sym. Qed.
  Lemma bsum_delta_l n k f : (k < n)%nat -> bsum n (fun i => delta k i * f i) = f k.
  Proof.
    intros Hk. rewrite (bsum_single n k); auto.
    - rewrite delta_refl; ring.
    - intros i _ Hi. rewrite delta_neq by auto. ring.
  Qed.
  Lemma bsum_delta_r n k f : (k < n)%nat -> bsum n (fun i => f i * delta i k) = f k.
  Proof.
    intros Hk. rewrite (bsum_single n k); auto.
    - rewrite delta_refl; ring.
    - intros i _ Hi. rewrite delta_neq by auto. ring.
  Qed.
End Sums.
