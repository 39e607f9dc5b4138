(** Gradients and Hessians of the log densities. *)
From Coq Require Import List Arith Lia Bool Reals Lra.
From Verif Require Import Scalar Sums Tensor LogLik LikSpec LikFlat Calc.
Import ListNotations.
Local Open Scope R_scope.

Lemma bsum_zero_term n (f : nat -> R) : (forall i, (i < n)%nat -> f i = 0) -> bsum n f = 0.
Proof. intros E. exact (bsum_0 n f E). Qed.
Lemma sum_exp_pos c (y : nat -> R) : (0 < c)%nat -> 0 < bsum c (fun j => exp (y j)).
Proof. intros Hc. apply (bsum_pos _ _ 0%nat); auto; intros; try apply Rlt_le; apply exp_pos. Qed.
Lemma two : @nnat R _ 2 = 2. Proof. rewrite nnat_R. cbn. lra. Qed.

Definition grouped (k : lik) (c n : nat) : Prop := k = LogBernoulli -> (0 < c)%nat /\ exists g, n = (g * c)%nat.

Lemma term_density k c n (t y : nat -> R) : grouped k c n -> bsum n (term k c t y) = log_density k c n t y.
Proof.
  intros G. unfold log_density. destruct k; cbn zeta; apply bsum_ext; intros i Hi; unfold term; cbn zeta; rewrite ?two; cbn [nadd nmul nsub nopp ndiv n0 n1 nexp nln Num_R].
  - field.
  - pose proof (exp_pos (y i)) as P. pose proof (exp_pos (- y i)) as P'. rewrite exp_0.
    assert (Q : 0 < exp (y i) + 1) by lra.
    assert (E : / (1 + exp (- y i)) = exp (y i) / (exp (y i) + 1)). { rewrite exp_Ropp. field. repeat split; lra. }
    rewrite E.
    assert (E' : 1 - exp (y i) / (exp (y i) + 1) = / (exp (y i) + 1)) by (field; lra).
    rewrite E'. unfold Rdiv. rewrite ln_mult by (auto using Rinv_0_lt_compat). rewrite ln_Rinv, ln_exp by auto. ring.
  - destruct (G eq_refl) as [Hc _]. set (Sm := bsum c (fun j => exp (y (i / c * c + j)%nat))).
    assert (P : 0 < Sm) by (apply (sum_exp_pos c (fun j => y (i / c * c + j)%nat)); auto).
    unfold Rdiv. rewrite ln_mult by (auto using Rinv_0_lt_compat, exp_pos). rewrite ln_Rinv, ln_exp by auto. ring.
Qed.

(** the derivative of the normaliser of the group of entry i *)
Lemma dl_group c (Y : R -> nat -> R) t0 (v : nat -> R) g : (forall j, (j < c)%nat -> derivable_pt_lim (fun t => Y t (g * c + j)%nat) t0 (v (g * c + j)%nat)) ->
  derivable_pt_lim (fun t => bsum c (fun j => exp (Y t (g * c + j)%nat))) t0 (bsum c (fun j => exp (Y t0 (g * c + j)%nat) * v (g * c + j)%nat)).
Proof.
  intros D. apply (dl_bsum c (fun j t => exp (Y t (g * c + j)%nat)) (fun j => exp (Y t0 (g * c + j)%nat) * v (g * c + j)%nat)).
  intros j Hj. apply (dl_comp (fun t => Y t (g * c + j)%nat) exp); [now apply D|apply dl_exp].
Qed.
Lemma in_group c n i : (i < n)%nat -> (0 < c)%nat -> (exists g, n = (g * c)%nat) -> forall j, (j < c)%nat -> (i / c * c + j < n)%nat.
Proof.
  intros Hi Hc [g ->] j Hj. assert (i / c < g)%nat by (apply Nat.div_lt_upper_bound; lia). nia.
Qed.
Lemma group_of c g j : (j < c)%nat -> ((g * c + j) / c = g)%nat.
Proof. intros Hj. rewrite Nat.div_add_l by lia. rewrite Nat.div_small; lia. Qed.

Lemma dl_term k c n (t : nat -> R) (Y : R -> nat -> R) t0 (y v : nat -> R) i : grouped k c n -> (i < n)%nat -> passes n Y t0 y v ->
  derivable_pt_lim (fun u => term k c t (Y u) i) t0
    (match k with
     | LogGaussian => (t i - y i) * v i
     | LogBinaryBernoulli => (t i - prob LogBinaryBernoulli c y i) * v i
     | LogBernoulli => t i * (v i - bsum c (fun j => exp (y (i / c * c + j)%nat) * v (i / c * c + j)%nat) / bsum c (fun j => exp (y (i / c * c + j)%nat)))
     end).
Proof.
  intros G Hi P. destruct (P i Hi) as [E D]. destruct k.
  - eapply dl_ext; [intros u; unfold term; rewrite two; cbn [nadd nmul nsub nopp ndiv n0 n1 nexp nln Num_R]; reflexivity|].
    assert (D1 : derivable_pt_lim (fun u => Y u i - t i) t0 (v i - 0)) by (apply dl_minus; [auto|apply dl_const]).
    eapply dl_eq; [apply dl_scal; apply (dl_mult _ _ _ _ _ D1 D1)|]. cbv beta. rewrite E. field.
  - eapply dl_ext; [intros u; unfold term; cbn zeta; cbn [nadd nmul nsub nopp ndiv n0 n1 nexp nln Num_R]; reflexivity|].
    assert (D1 : derivable_pt_lim (fun u => exp (Y u i) + exp 0) t0 (exp (Y t0 i) * v i + 0)).
    { apply dl_plus; [|apply dl_const]. apply (dl_comp (fun u => Y u i) exp); [auto|apply dl_exp]. }
    assert (Q : 0 < exp (Y t0 i) + exp 0) by (pose proof (exp_pos (Y t0 i)); pose proof (exp_pos 0); lra).
    assert (D2 : derivable_pt_lim (fun u => ln (exp (Y u i) + exp 0)) t0 (/ (exp (Y t0 i) + exp 0) * (exp (Y t0 i) * v i + 0))).
    { apply (dl_comp (fun u => exp (Y u i) + exp 0) ln); [auto|]. now apply derivable_pt_lim_ln. }
    eapply dl_eq; [apply dl_plus; apply dl_scal, dl_minus; eauto; apply dl_const|].
    unfold prob. cbn [nadd nmul nsub nopp ndiv n0 n1 nexp nln Num_R]. rewrite <- E. rewrite exp_0 in *. field. lra.
  - destruct (G eq_refl) as [Hc Hg]. eapply dl_ext; [intros u; unfold term; cbn [nadd nmul nsub nopp ndiv n0 n1 nexp nln Num_R]; reflexivity|].
    assert (D1 := dl_group c Y t0 v (i / c)%nat (fun j Hj => proj2 (P _ (in_group c n i Hi Hc Hg j Hj)))).
    pose proof (sum_exp_pos c (fun j => Y t0 (i / c * c + j)%nat) Hc) as Q.
    eapply dl_eq. { apply dl_scal, dl_minus; [exact D|]. apply (dl_comp (fun u => bsum c (fun j => exp (Y u (i / c * c + j)%nat))) ln); [exact D1|]. now apply derivable_pt_lim_ln. }
    assert (Ey : forall f, bsum c (fun j => exp (Y t0 (i / c * c + j)%nat) * f j) = bsum c (fun j => exp (y (i / c * c + j)%nat) * f j)).
    { intros f. apply bsum_ext. intros j Hj. destruct (P _ (in_group c n i Hi Hc Hg j Hj)) as [-> _]. reflexivity. }
    assert (Es : bsum c (fun j => exp (Y t0 (i / c * c + j)%nat)) = bsum c (fun j => exp (y (i / c * c + j)%nat))).
    { apply bsum_ext. intros j Hj. destruct (P _ (in_group c n i Hi Hc Hg j Hj)) as [-> _]. reflexivity. }
    rewrite (Ey (fun j => v (i / c * c + j)%nat)), Es in *. unfold Rdiv. ring.
Qed.

(** the gradient of the log density: target minus probability *)
Lemma density_gradient k c n (t y : nat -> R) : grouped k c n -> proper k c n t ->
  is_gradient n (log_density k c n t) y (fun i => t i - prob k c y i).
Proof.
  intros G Pr Y t0 v P. eapply dl_ext; [intros u; apply term_density, G|].
  eapply dl_eq. { apply (dl_bsum n (fun i u => term k c t (Y u) i)). intros i Hi. apply (dl_term k c n t Y t0 y v i G Hi P). }
  destruct k; try (apply bsum_ext; intros i Hi; reflexivity).
  destruct (G eq_refl) as [Hc [g ->]]. rewrite !bsum_prod. apply bsum_ext. intros a Ha.
  set (Z := fun a => bsum c (fun j => exp (y (a * c + j)%nat))). set (W := fun a => bsum c (fun j => exp (y (a * c + j)%nat) * v (a * c + j)%nat)).
  rewrite (bsum_ext c _ (fun j => t (a * c + j)%nat * v (a * c + j)%nat - t (a * c + j)%nat * (W a / Z a))).
  2:{ intros j Hj. rewrite group_of by auto. change (bsum c (fun j => exp (y (a * c + j)%nat))) with (Z a). change (bsum c (fun j => exp (y (a * c + j)%nat) * v (a * c + j)%nat)) with (W a). ring. }
  rewrite bsumR_sub, bsumR_mul_r, (Pr a) by nia.
  rewrite (bsum_ext c (fun j => (t (a * c + j)%nat - _) * _) (fun j => t (a * c + j)%nat * v (a * c + j)%nat - exp (y (a * c + j)%nat) * v (a * c + j)%nat * / Z a)).
  2:{ intros j Hj. unfold prob. rewrite group_of by auto. cbn [ndiv nexp Num_R]. change (bsum c (fun j => exp (y (a * c + j)%nat))) with (Z a). unfold Rdiv. ring. }
  rewrite bsumR_sub, bsumR_mul_r. change (bsum c (fun j => exp (y (a * c + j)%nat) * v (a * c + j)%nat)) with (W a). unfold Rdiv. ring.
Qed.

(** second derivatives of the log density *)
Definition hess (k : lik) (c : nat) (y : nat -> R) (i j : nat) : R :=
  match k with
  | LogGaussian => if Nat.eqb i j then - 1 else 0
  | LogBinaryBernoulli => if Nat.eqb i j then prob k c y i * prob k c y i - prob k c y i else 0
  | LogBernoulli => if Nat.eqb (i / c) (j / c) then prob k c y i * prob k c y j - (if Nat.eqb i j then prob k c y i else 0) else 0
  end.
Lemma diag_sum n (a : R) (v : nat -> R) i : (i < n)%nat -> bsum n (fun j => (if Nat.eqb i j then a else 0) * v j) = a * v i.
Proof.
  intros Hi. rewrite (bsum_single n i); [now rewrite Nat.eqb_refl|auto|]. intros j _ Hj. destruct (Nat.eqb_spec i j); [congruence|cbn; ring].
Qed.
Lemma group_sum g c (f : nat -> R) i : (0 < c)%nat -> (i < g * c)%nat ->
  bsum (g * c) (fun j => if Nat.eqb (i / c) (j / c) then f j else 0) = bsum c (fun j => f (i / c * c + j)%nat).
Proof.
  intros Hc Hi. rewrite bsum_prod. assert (L : (i / c < g)%nat) by (apply Nat.div_lt_upper_bound; lia).
  rewrite (bsum_single g (i / c)); auto.
  - apply bsum_ext. intros j Hj. rewrite group_of by auto. now rewrite Nat.eqb_refl.
  - intros a Ha Na. apply bsum_zero_term. intros j Hj. rewrite group_of by auto. destruct (Nat.eqb_spec (i / c) a); [congruence|reflexivity].
Qed.
Lemma dl_prob k c n (y : nat -> R) i : grouped k c n -> (i < n)%nat -> is_gradient n (fun z => - prob k c z i) y (hess k c y i).
Proof.
  intros G Hi Y t0 v P. destruct (P i Hi) as [E D]. destruct k; unfold hess.
  - rewrite diag_sum by auto. cbn [prob]. eapply dl_eq; [apply dl_opp, D|ring].
  - rewrite diag_sum by auto. unfold prob. cbn [nadd nmul nsub nopp ndiv n0 n1 nexp nln Num_R].
    assert (D1 : derivable_pt_lim (fun u => exp (Y u i)) t0 (exp (Y t0 i) * v i)) by (apply (dl_comp (fun u => Y u i) exp); [auto|apply dl_exp]).
    assert (Q : 0 < 1 + exp (Y t0 i)) by (pose proof (exp_pos (Y t0 i)); lra).
    assert (D2 : derivable_pt_lim (fun u => 1 / (1 + exp (Y u i))) t0 (- (0 + exp (Y t0 i) * v i) / ((1 + exp (Y t0 i)) * (1 + exp (Y t0 i))))).
    { apply (dl_inv (fun u => 1 + exp (Y u i))); [apply dl_plus; [apply dl_const|exact D1]|lra]. }
    eapply dl_ext; [|eapply dl_eq; [apply dl_opp, (dl_mult _ _ _ _ _ D1 D2)|]].
    + intros u. cbv beta. unfold Rdiv. ring.
    + cbv beta. rewrite E. rewrite E in Q. field. lra.
  - destruct (G eq_refl) as [Hc [g ->]].
    set (Z := fun y => bsum c (fun j => exp (y (i / c * c + j)%nat)) : R).
    assert (PZ : forall z, 0 < Z z) by (intros z; apply (sum_exp_pos c (fun j => z (i / c * c + j)%nat)); auto).
    assert (Hg : exists g0, (g * c)%nat = (g0 * c)%nat) by eauto.
    assert (D1 : derivable_pt_lim (fun u => exp (Y u i)) t0 (exp (Y t0 i) * v i)) by (apply (dl_comp (fun u => Y u i) exp); [auto|apply dl_exp]).
    set (W := bsum c (fun j => exp (y (i / c * c + j)%nat) * v (i / c * c + j)%nat)).
    assert (Ez : Z (Y t0) = Z y). { apply bsum_ext. intros j Hj. destruct (P _ (in_group c _ i Hi Hc Hg j Hj)) as [-> _]. reflexivity. }
    assert (D2 : derivable_pt_lim (fun u => 1 / Z (Y u)) t0 (- W / (Z y * Z y))).
    { eapply dl_eq. { apply (dl_inv (fun u => Z (Y u))); [exact (dl_group c Y t0 v (i / c)%nat (fun j Hj => proj2 (P _ (in_group c _ i Hi Hc Hg j Hj))))|]. specialize (PZ (Y t0)). lra. }
      rewrite Ez. f_equal. f_equal. apply bsum_ext. intros j Hj. destruct (P _ (in_group c _ i Hi Hc Hg j Hj)) as [-> _]. reflexivity. }
    eapply dl_ext; [|eapply dl_eq; [apply dl_opp, (dl_mult _ _ _ _ _ D1 D2)|]].
    + intros u. unfold prob. cbn [ndiv nexp Num_R]. fold (Z (Y u)). unfold Rdiv. ring.
    + cbv beta. rewrite Ez, E.
      rewrite (bsum_ext (g * c) _ (fun j => if Nat.eqb (i / c) (j / c) then exp (y i) / (Z y * Z y) * (exp (y j) * v j) - (if Nat.eqb i j then exp (y i) / Z y else 0) * v j else 0)).
      2:{ intros j Hj. destruct (Nat.eqb_spec (i / c) (j / c)) as [Ej|_]; [|ring]. unfold prob. cbn [ndiv nexp Num_R]. rewrite <- Ej. fold (Z y). pose proof (PZ y).
          destruct (Nat.eqb i j); field; lra. }
      rewrite (group_sum g c (fun j => exp (y i) / (Z y * Z y) * (exp (y j) * v j) - (if Nat.eqb i j then exp (y i) / Z y else 0) * v j) i Hc Hi).
      rewrite bsumR_sub, bsumR_mul_l. fold W.
      rewrite (bsum_single c (i mod c) (fun j => (if Nat.eqb i (i / c * c + j) then exp (y i) / Z y else 0) * v (i / c * c + j)%nat)).
      * assert (Em : (i / c * c + i mod c = i)%nat) by (pose proof (Nat.div_mod i c); lia). rewrite Em, Nat.eqb_refl. pose proof (PZ y). field. lra.
      * apply Nat.mod_upper_bound. lia.
      * intros j Hj Nj. destruct (Nat.eqb_spec i (i / c * c + j)) as [Ei|_]; [|cbn; ring]. exfalso. apply Nj. pose proof (Nat.div_mod i c). lia.
Qed.
Lemma density_hessian k c n (t y : nat -> R) : grouped k c n -> proper k c n t -> is_hessian n (log_density k c n t) y (hess k c y).
Proof.
  intros G Pr. exists (fun z i => t i - prob k c z i). split; [intros z; now apply density_gradient|].
  intros i Hi Y t0 v P. eapply dl_ext; [|eapply dl_eq; [apply dl_plus; [exact (dl_const (t i) t0)|exact (dl_prob k c n y i G Hi Y t0 v P)]|ring]].
  intros u. cbv beta. ring.
Qed.
