(** The generalised Gauss-Newton matrix of a log likelihood is symmetric and negative semidefinite. *)
From Coq Require Import List Arith Lia Bool Reals Lra.
From Verif Require Import Scalar Sums Tensor Abstract Module Spec SpecQ Domain DiagSpec DiagExact TreeBase Trees Algebra LogLik LikSpec LikFlat LikCalc LikMain Calc NegSpec.
Import ListNotations.
Local Open Scope R_scope.

(** *** a gradient and a matrix of second derivatives are unique *)
Lemma gradient_unique n f y r r' i : is_gradient n f y r -> is_gradient n f y r' -> (i < n)%nat -> r i = r' i.
Proof.
  intros G G' Hi. set (v := fun j => if Nat.eqb i j then 1 else 0).
  assert (P : passes n (fun t j => y j + t * v j) 0 y v).
  { intros j Hj. split; [ring|]. eapply dl_eq; [apply dl_plus; [apply dl_const|apply (dl_mult (fun t => t) (fun _ => v j)); [apply derivable_pt_lim_id|apply dl_const]]|]. cbv beta. ring. }
  pose proof (uniqueness_limite _ _ _ _ (G _ _ _ P) (G' _ _ _ P)) as E.
  assert (S : forall r : nat -> R, bsum n (fun j => r j * v j) = r i).
  { intros r0. rewrite (bsum_single n i); auto; unfold v.
    - rewrite Nat.eqb_refl. ring.
    - intros j _ Nj. destruct (Nat.eqb_spec i j); [congruence|]. cbn. ring. }
  now rewrite !S in E.
Qed.
Lemma hessian_unique n f y H H' i j : is_hessian n f y H -> is_hessian n f y H' -> (i < n)%nat -> (j < n)%nat -> H i j = H' i j.
Proof.
  intros (g & G1 & G2) (g' & G1' & G2') Hi Hj. apply (gradient_unique n (fun z => g z i) y); auto.
  intros Y t0 v P. eapply dl_ext; [|apply (G2' i Hi Y t0 v P)]. intros u. cbv beta.
  apply (gradient_unique n f (Y u)); auto.
Qed.

(** *** second derivatives of the log densities *)
Lemma quad_diagonal n (a v : nat -> R) q : quad n (fun _ i k => if Nat.eqb i k then a i else 0) q v = bsum n (fun i => a i * (v i * v i)).
Proof.
  unfold quad. apply bsum_ext. intros i Hi. rewrite (bsum_single n i); auto.
  - rewrite Nat.eqb_refl. cbn. ring.
  - intros k _ Nk. destruct (Nat.eqb_spec i k); [congruence|]. cbn. ring.
Qed.
Lemma quad_categorical n (p v : nat -> R) q : bsum n p = 1 ->
  quad n (fun _ i k => (if Nat.eqb i k then p i else 0) - p i * p k) q v =
  bsum n (fun i => p i * ((v i - bsum n (fun k => p k * v k)) * (v i - bsum n (fun k => p k * v k)))).
Proof.
  intros S. set (mu := bsum n (fun k => p k * v k)).
  transitivity (bsum n (fun i => p i * (v i * v i)) - mu * mu).
  - rewrite <- (quad_diagonal n p v q). unfold quad.
    unfold mu at 1. rewrite <- bsumR_mul_r, <- bsumR_sub. apply bsum_ext. intros i Hi. unfold mu. rewrite <- bsumR_mul_l, <- bsumR_sub.
    apply bsum_ext. intros k Hk. cbn. ring.
  - rewrite (bsum_ext n (fun i => p i * ((v i - mu) * (v i - mu))) (fun i => p i * (v i * v i) - (p i * v i * (2 * mu) - p i * (mu * mu)))) by (intros; ring).
    rewrite !bsumR_sub, !bsumR_mul_r, S. fold mu. ring.
Qed.
Lemma prob_binary y c i : 0 < prob LogBinaryBernoulli c y i < 1.
Proof.
  unfold prob. cbn. pose proof (exp_pos (y i)). split.
  - apply Rdiv_lt_0_compat; lra.
  - apply Rmult_lt_reg_r with (1 + exp (y i)); [lra|]. unfold Rdiv. rewrite Rmult_assoc, Rinv_l by lra. lra.
Qed.
Lemma hess_sym k c y i j : hess k c y i j = hess k c y j i.
Proof.
  unfold hess. rewrite (Nat.eqb_sym j i), (Nat.eqb_sym (j / c)). destruct k; auto.
  - destruct (Nat.eqb_spec i j); subst; auto.
  - destruct (Nat.eqb_spec i j) as [->|]; auto. destruct Nat.eqb; auto. ring.
Qed.
Lemma hess_neg k c n y q : (k = LogBernoulli -> n = c /\ (0 < c)%nat) -> psd_at n (fun _ i j => - hess k c y i j) q.
Proof.
  intros G v. destruct k.
  - erewrite quad_ext; [rewrite (quad_diagonal n (fun _ => 1) v q)|].
    + apply bsumR_nonneg. intros i Hi. pose proof (Rle_0_sqr (v i)). unfold Rsqr in *. lra.
    + intros i j _ _. cbn. destruct Nat.eqb; cbn; lra.
  - erewrite quad_ext; [rewrite (quad_diagonal n (fun i => prob LogBinaryBernoulli c y i - prob LogBinaryBernoulli c y i * prob LogBinaryBernoulli c y i) v q)|].
    + apply bsumR_nonneg. intros i Hi. pose proof (prob_binary y c i). pose proof (Rle_0_sqr (v i)). unfold Rsqr in *.
      apply Rmult_le_pos; auto. nra.
    + intros i j _ _. unfold hess. destruct Nat.eqb; cbn; lra.
  - destruct (G eq_refl) as [-> Hc].
    set (p := prob LogBernoulli c y). set (Z := bsum c (fun j => exp (y j))).
    assert (PZ : 0 < Z) by (apply sum_exp_pos; auto).
    assert (Ep : forall i, (i < c)%nat -> p i = exp (y i) / Z).
    { intros i Hi. unfold p, prob. rewrite Nat.div_small by auto. reflexivity. }
    assert (Sp : bsum c p = 1).
    { rewrite (bsum_ext c p (fun i => exp (y i) * / Z)); [|intros i Hi; rewrite Ep by auto; reflexivity].
      rewrite bsumR_mul_r. fold Z. apply Rinv_r. lra. }
    erewrite quad_ext; [rewrite (quad_categorical c p v q Sp)|].
    + apply bsumR_nonneg. intros i Hi. apply Rmult_le_pos; [|apply Rle_0_sqr]. rewrite Ep by auto.
      apply Rlt_le, Rdiv_lt_0_compat; [apply exp_pos|exact PZ].
    + intros i j Hi Hj. unfold hess. rewrite !(Nat.div_small _ c) by auto. cbn [Nat.eqb]. fold p. destruct Nat.eqb; cbn; ring.
Qed.
Definition one_hot (c i : nat) : R := if Nat.eqb (i mod c) 0 then 1 else 0.
Lemma one_hot_proper k c n : (0 < c)%nat -> proper k c n (one_hot c).
Proof.
  intros Hc. destruct k; cbn; auto. intros g _. rewrite (bsum_single c 0); auto.
  - unfold one_hot. rewrite Nat.add_0_r, Nat.mod_mul by lia. reflexivity.
  - intros j Hj Nj. unfold one_hot. rewrite Nat.add_comm, Nat.mod_add, Nat.mod_small by lia. destruct (Nat.eqb_spec j 0); [congruence|reflexivity].
Qed.

(** *** what "negative semidefinite" means for the returned tensor *)
Lemma agg_nonpos a b (f : nat -> R) : (0 < b)%nat -> reduces a -> (forall q, (q < b)%nat -> f q <= 0) -> agg_value_of a b f <= 0.
Proof.
  intros Hb Ra P. assert (S : bsum b f <= 0).
  { assert (0 <= bsum b (fun q => 0 - f q)) by (apply bsumR_nonneg; intros q Hq; specialize (P q Hq); lra).
    rewrite bsumR_sub in H. rewrite bsum_zero_term in H; [|reflexivity]. cbn in H. lra. }
  destruct Ra as [-> | ->]; cbn; auto. apply lt_INR in Hb. cbn in Hb.
  unfold Rdiv. rewrite <- (Rmult_0_l (/ INR b)). apply Rmult_le_compat_r; auto. apply Rlt_le, Rinv_0_lt_compat. auto.
Qed.
Lemma agg_ext a b (f g : nat -> R) : (forall q, (q < b)%nat -> f q = g q) -> agg_value_of a b f = agg_value_of a b g.
Proof. intros E. destruct a; cbn; auto; now rewrite (bsum_ext b f g). Qed.
Lemma agg_quad a b n (Rm : nat -> nat -> nat -> R) v : reduces a ->
  bsum n (fun i => bsum n (fun j => v i * agg_value_of a b (fun q => Rm q i j) * v j)) = agg_value_of a b (fun q => quad n Rm q v).
Proof.
  intros Ra. assert (E : bsum n (fun i => bsum n (fun j => v i * bsum b (fun q => Rm q i j) * v j)) = bsum b (fun q => quad n Rm q v)).
  { unfold quad. rewrite (bsum_swap b n). apply bsum_ext. intros i Hi. rewrite (bsum_swap b n). apply bsum_ext. intros j Hj.
    rewrite <- bsumR_mul_l, <- bsumR_mul_r. reflexivity. }
  destruct Ra as [-> | ->]; cbn [agg_value_of]; auto. rewrite <- E. unfold Rdiv. rewrite <- bsumR_mul_r.
  apply bsum_ext. intros i Hi. rewrite <- bsumR_mul_r. apply bsum_ext. intros j Hj. ring.
Qed.
Lemma aggregates_negative a td b n (Rm : nat -> nat -> nat -> R) G : (0 < b)%nat -> reduces a -> aggregates a td b n Rm G ->
  (if td then forall q i, (q < b)%nat -> (i < n)%nat -> Rm q i i <= 0
   else forall q, (q < b)%nat -> sym_at n Rm q /\ forall v, quad n Rm q v <= 0) -> negative td n G.
Proof.
  intros Hb Ra (WG & SG & EG) P. destruct td; cbn.
  - split; auto. intros i Hi. specialize (EG i i Hi Hi). cbn in EG. rewrite EG. apply agg_nonpos; auto.
  - split; auto. split.
    + intros i j Hi Hj. pose proof (EG i j Hi Hj) as E1. pose proof (EG j i Hj Hi) as E2. cbn in E1, E2. rewrite E1, E2. apply agg_ext.
      intros q Hq. now apply (P q Hq).
    + intros v. erewrite bsum_ext.
      2:{ intros i Hi. apply bsum_ext. intros j Hj. pose proof (EG i j Hi Hj) as E1. cbn in E1. rewrite E1. reflexivity. }
      rewrite (agg_quad a b n Rm v Ra). apply agg_nonpos; auto. intros q Hq. now apply (P q Hq).
Qed.
Lemma quad_opp n (M : nat -> nat -> nat -> R) q v : quad n (fun q i k => - M q i k) q v = - quad n M q v.
Proof.
  unfold quad. replace (- bsum n (fun i => bsum n (fun k => nmul (nmul (v i) (M q i k)) (v k)))) with (bsum n (fun i => bsum n (fun k => nmul (nmul (v i) (M q i k)) (v k))) * -1) by ring.
  rewrite <- bsumR_mul_r. apply bsum_ext. intros i Hi. rewrite <- bsumR_mul_r. apply bsum_ext. intros k Hk. cbn. ring.
Qed.

(** *** the theorems *)
Lemma hm_is_hess k c n y (Hm : nat -> nat -> R) : (k = LogBernoulli -> n = c) ->
  (forall t, proper k c n t -> is_hessian n (log_density k c n t) y Hm) -> forall i j, (i < n)%nat -> (j < n)%nat -> Hm i j = hess k c y i j.
Proof.
  intros G P i j Hi Hj.
  assert (Q : exists t, proper k c n t).
  { destruct k; try (exists (fun _ => 0); exact I). exists (one_hot c). apply one_hot_proper. rewrite <- G; auto; lia. }
  assert (G' : grouped k c n) by (intros E; rewrite <- (G E); split; [lia|exists 1%nat; lia]).
  destruct Q as [t Pt]. apply (hessian_unique n (log_density k c n t) y); auto. now apply density_hessian.
Qed.
Lemma hm_neg k c n q y (Hm : nat -> nat -> nat -> R) : (k = LogBernoulli -> n = c) ->
  (forall t, proper k c n t -> is_hessian n (log_density k c n t) y (Hm q)) ->
  sym_at n Hm q /\ psd_at n (fun q i j => - Hm q i j) q.
Proof.
  intros G P. pose proof (hm_is_hess k c n y (Hm q) G P) as E. split.
  - intros i j Hi Hj. rewrite !E by auto. apply hess_sym.
  - destruct n as [|n]; [intros v; apply Rle_refl|].
    apply (psd_ext _ (fun _ i j => - hess k c y i j)); [intros i j Hi Hj; now rewrite E|]. apply hess_neg. intros Ek. split; [auto|]. rewrite <- (G Ek). lia.
Qed.
Lemma pull_opp m J (M : nat -> nat -> nat -> R) q i j : pull_at m J (fun q a c => - M q a c) q i j = - pull_at m J M q i j.
Proof.
  unfold pull_at. match goal with |- _ = - ?X => replace (- X) with (X * -1) by ring end.
  rewrite <- bsumR_mul_r. apply bsum_ext. intros a Ha. rewrite <- bsumR_mul_r. apply bsum_ext. intros c Hc. cbn. ring.
Qed.
Lemma pull_neg k c m n q y J (Hm : nat -> nat -> nat -> R) : (k = LogBernoulli -> m = c) ->
  (forall t, proper k c m t -> is_hessian m (log_density k c m t) y (Hm q)) ->
  sym_at n (pull_at m J Hm) q /\ forall v, quad n (pull_at m J Hm) q v <= 0.
Proof.
  intros G P. destruct (hm_neg k c m q y Hm G P) as [S N]. split; [now apply sym_pull|]. intros v.
  apply (psd_pull n m J) in N. specialize (N v).
  rewrite (quad_ext n _ (fun q i k => - pull_at m J Hm q i k)), quad_opp in N by (intros; now apply pull_opp). lra.
Qed.
Lemma pulled_negative a sh b k c m n y J Hm G : (0 < b)%nat -> reduces a -> (k = LogBernoulli -> m = c) ->
  (forall t q, (q < b)%nat -> proper k c m t -> is_hessian m (log_density k c m t) (y q) (Hm q)) ->
  aggregates a (only_diag sh) b n (pull_at m J Hm) G -> negative (only_diag sh) n G.
Proof.
  intros Hb Ra Gr P A. apply (aggregates_negative a (only_diag sh) b n (pull_at m J Hm)); auto.
  assert (Q : forall q, (q < b)%nat -> sym_at n (pull_at m J Hm) q /\ forall v, quad n (pull_at m J Hm) q v <= 0).
  { intros q Hq. apply (pull_neg k c m n q (y q)); auto. }
  destruct only_diag; auto. intros q i Hq Hi. destruct (Q q Hq) as [_ N]. specialize (N (fun j => delta i j)). now rewrite quad_delta in N.
Qed.
Lemma neg_ggn_input : forall k a sh l (m : module R) (s s' : list nat) (b : nat) (x : tensor R) h,
  ll_init a sh MExact = Ok l -> reduces a -> typed m s s' -> all_sym m -> nonempty m -> (0 < b)%nat -> wf x -> shape x = b :: s ->
  (k = LogBernoulli -> s' <> [] /\ numel s' = last s' 0%nat) ->
  exists G, snd (ll_ggn k l m h x Input) = Ok (VT G) /\ negative (only_diag sh) (numel s) G.
Proof.
  intros k a sh l m s s' b x h I0 Ra Ty Sy Ne Hb Wx Sx Hk.
  destruct (main_ggn_input k a sh l m s s' b x h I0 Ra Ty Sy Ne Hb Wx Sx Hk) as (y & J & Hm & G & _ & _ & _ & P & E & A).
  exists G. split; auto. apply (pulled_negative a sh b k (last s' 0%nat) (numel s') _ (sample (numel s') y) (entry J) Hm); auto. intros Ek. now apply Hk.
Qed.
Lemma neg_ggn_weight : forall k a sh l (m : module R) (s s' : list nat) (b : nat) (x : tensor R) h,
  ll_init a sh MExact = Ok l -> reduces a -> typed m s s' -> all_sym m -> nonempty m -> (0 < b)%nat -> wf x -> shape x = b :: s ->
  (k = LogBernoulli -> s' <> [] /\ numel s' = last s' 0%nat) -> n_params m <> 0%nat -> (sh = MDiag \/ exists lf, m = Leaf lf) ->
  exists G, snd (ll_ggn k l m h x Weight) = Ok (VT G) /\ negative (only_diag sh) (n_params m) G.
Proof.
  intros k a sh l m s s' b x h I0 Ra Ty Sy Ne Hb Wx Sx Hk Hn Hs.
  destruct (main_ggn_weight k a sh l m s s' b x h I0 Ra Ty Sy Ne Hb Wx Sx Hk Hn Hs) as (y & J & Hm & G & _ & _ & _ & P & E & A).
  exists G. split; auto. apply (pulled_negative a sh b k (last s' 0%nat) (numel s') _ (sample (numel s') y) (entry J) Hm); auto. intros Ek. now apply Hk.
Qed.

(** *** the diagonal approximation *)
Section Opp.
  Notation T := (tensor R).
  Notation dm := (nat -> nat -> R).
  Definition anti (d' d : dm) : Prop := forall q i, d' q i = - d q i.
  Lemma diag_pull_anti n J (d d' : dm) : anti d' d -> anti (diag_pull n J d') (diag_pull n J d).
  Proof.
    intros A q j. unfold diag_pull. match goal with |- _ = - ?X => replace (- X) with (X * -1) by ring end.
    rewrite <- bsumR_mul_r. apply bsum_ext. intros i Hi. rewrite A. cbn. ring.
  Qed.
  Lemma dpull_anti : forall m (x : T) (d d' : dm), anti d' d -> anti (dpull m x d') (dpull m x d).
  Proof.
    refine (module_ind2 (fun m => forall (x : T) (d d' : dm), anti d' d -> anti (dpull m x d') (dpull m x d))
      (fun ms => forall (x : T) (d d' : dm), anti d' d -> anti (seq_dpull dpull ms x d') (seq_dpull dpull ms x d)) _ _ _ _ _ _).
    - intros l x d d' A. cbn [dpull]. destruct fwd; auto. now apply diag_pull_anti.
    - intros l x d d' A. cbn [dpull]. destruct fwd; auto. now apply diag_pull_anti.
    - intros h ms IH x d d' A. now apply IH.
    - intros F IH x d d' A q j. cbn [dpull]. rewrite (A q j), (IH x (fun q i => d q (width x + i)%nat)) by (intros q' i; apply A). cbn. ring.
    - intros x d d' A. exact A.
    - intros m ms IHm IHs x d d' A. cbn [seq_dpull]. destruct fwd; auto.
  Qed.
  Lemma dpullw_anti : forall m (x : T) (d d' : dm), anti d' d -> anti (dpullw m x d') (dpullw m x d).
  Proof.
    refine (module_ind2 (fun m => forall (x : T) (d d' : dm), anti d' d -> anti (dpullw m x d') (dpullw m x d))
      (fun ms => (forall (x : T) (d d' : dm), anti d' d -> anti (seq_dpullw dpullw ms x d') (seq_dpullw dpullw ms x d)) /\
                 (forall (x : T) (d d' : dm), anti d' d -> anti (seq_dpull dpull ms x d') (seq_dpull dpull ms x d))) _ _ _ _ _ _).
    - intros l x d d' A. cbn [dpullw]. destruct fwd; auto. now apply diag_pull_anti.
    - intros l x d d' A. cbn [dpullw]. destruct fwd; auto. now apply diag_pull_anti.
    - intros h ms [IH _] x d d' A. now apply IH.
    - intros F IH x d d' A. cbn [dpullw]. apply IH. intros q i. apply A.
    - split; intros x d d' A; [|exact A]. intros q i. cbn. ring.
    - intros m ms IHm [IHs IHp]. split; intros x d d' A.
      + cbn [seq_dpullw]. destruct fwd as [y|]; [|intros q i; cbn; ring]. intros q p. destruct Nat.ltb; [apply IHm; now apply IHp|now apply IHs].
      + cbn [seq_dpull]. destruct fwd; auto. apply dpull_anti. now apply IHp.
  Qed.
End Opp.
Lemma neg_ggn_approx : forall k a l (m : module R) (s s' : list nat) (b : nat) (x : tensor R) h w,
  ll_init a MDiag MApprox = Ok l -> reduces a -> typed m s s' -> all_sym m -> (0 < b)%nat -> wf x -> shape x = b :: s ->
  k <> LogBernoulli -> w <> Other -> (w = Weight -> n_params m <> 0%nat) ->
  exists G, snd (ll_ggn k l m h x w) = Ok (VT G) /\ negative true (match w with Input => numel s | _ => n_params m end) G.
Proof.
  intros k a l m s s' b x h w I0 Ra Ty Sy Hb Wx Sx Hk Hw Hn.
  destruct (main_ggn_approx k a l m s s' b x h w I0 Ra Ty Sy Hb Wx Sx Hk Hw Hn) as (y & Hm & G & _ & P & E & A).
  exists G. split; auto. eapply aggregates_negative; eauto. cbv beta iota.
  assert (N : forall q i, (q < b)%nat -> (i < numel s')%nat -> 0 <= - Hm q i i).
  { intros q i Hq Hi. destruct (hm_neg k (last s' 0%nat) (numel s') q (sample (numel s') y q) Hm) as [_ N]; auto; [congruence|].
    apply (psd_diag (numel s') (fun q i j => - Hm q i j) q i Hi N). }
  destruct (dback_nneg m s s' b x (fun q i => - Hm q i i) Ty Hb Wx Sx N) as [N1 N2].
  assert (An : anti (fun q i => - Hm q i i) (fun q i => Hm q i i)) by (intros q i; reflexivity).
  intros q i Hq Hi. destruct w.
  - specialize (N1 q i Hq Hi). rewrite (dpull_anti m x _ _ An) in N1. lra.
  - specialize (N2 q i Hq Hi). rewrite (dpullw_anti m x _ _ An) in N2. lra.
  - congruence.
Qed.
