(** The gradient of LogBernoulli for every target: its error in closed form. *)
From Coq Require Import List Arith Lia Bool Reals Lra.
From Verif Require Import Scalar Sums Tensor TensorLemmas Conv Abstract Simple LinearLayer ConvLayer PoolLayer Module LogLik Spec Domain Smooth OpLemmas Jac
  LeafSpec TreeBase TreeVjp Leaves Trees ValArg Deriv LikSpec LikFlat LikCalc Calc Params LikGrad.
Import ListNotations.
Local Open Scope nat_scope.
Local Open Scope list_scope.

(** spec: how far the group of entry i of the target t is from summing to 1, times the class probability of entry i under the logits y *)
Definition excess (c : nat) (t y : nat -> R) (i : nat) : R :=
  ((1 - bsum c (fun j => t (i / c * c + j)%nat)) * (exp (y i) / bsum c (fun j => exp (y (i / c * c + j)%nat))))%R.

Lemma density_gradient_any c n (t y : nat -> R) : grouped LogBernoulli c n ->
  is_gradient n (log_density LogBernoulli c n t) y (fun i => t i - prob LogBernoulli c y i + excess c t y i)%R.
Proof.
  intros G Y t0 v P. eapply dl_ext; [intros u; apply term_density, G|].
  eapply dl_eq. { apply (dl_bsum n (fun i u => term LogBernoulli c t (Y u) i)). intros i Hi. apply (dl_term LogBernoulli c n t Y t0 y v i G Hi P). }
  cbv beta iota. destruct (G eq_refl) as [Hc [g ->]]. rewrite !bsum_prod. apply bsum_ext. intros a Ha.
  set (Z := fun a => bsum c (fun j => exp (y (a * c + j)%nat))). set (W := fun a => bsum c (fun j => exp (y (a * c + j)%nat) * v (a * c + j)%nat)%R).
  set (M := fun a => bsum c (fun j => t (a * c + j)%nat)).
  rewrite (bsum_ext c _ (fun j => t (a * c + j)%nat * v (a * c + j)%nat - t (a * c + j)%nat * (W a / Z a))%R).
  2:{ intros j Hj. rewrite group_of by auto. fold (Z a) (W a). ring. }
  rewrite bsumR_sub, bsumR_mul_r. fold (M a).
  rewrite (bsum_ext c (fun j => (t (a * c + j)%nat - _ + _) * _)%R (fun j => t (a * c + j)%nat * v (a * c + j)%nat - exp (y (a * c + j)%nat) * v (a * c + j)%nat * (M a / Z a))%R).
  2:{ intros j Hj. unfold prob, excess. rewrite group_of by auto. cbn [ndiv nexp Num_R]. fold (Z a) (M a). unfold Rdiv. ring. }
  rewrite bsumR_sub, bsumR_mul_r. fold (W a). unfold Rdiv. ring.
Qed.

Section Net.
  Variables (l : loglik) (m : module R) (s s' : list nat) (b : nat) (x tg : tensor R).
  Hypothesis (Ty : typed m s s') (Hb : 0 < b) (Wx : wf x) (Sx : shape x = b :: s) (Wt : wf tg) (St : shape tg = b :: s').
  Hypothesis (Hk : s' <> []) (Ra : reduces (ll_agg l)).
  Notation n := (numel s').
  Notation c := (last s' 0).
  Notation Hk' := (fun _ : LogBernoulli = LogBernoulli => Hk).
  Let G : grouped LogBernoulli c n.
  Proof. apply grouped_last; auto. exact (proj2 (typed_pos_m m s s' Ty)). Qed.
  Notation dens := (density LogBernoulli s' tg).
  Definition over (y : tensor R) (q i : nat) : R := excess c (sample n tg q) (sample n y q) i.

  Lemma value_derivative_any (Y : R -> tensor R) t0 y v : Y t0 = y -> moves Y t0 v -> shape v = b :: s' ->
    derivable_pt_lim (fun t => agg_value_of (ll_agg l) b (dens (Y t))) t0
      (agg_value_of (ll_agg l) b (fun q => bsum n (fun i => (sample n tg q i - prob LogBernoulli c (sample n y q) i + over y q i) * sample n v q i)%R)).
  Proof.
    intros Ey (Wv & _ & D) Sv. apply (dl_agg _ b (fun q t => dens (Y t) q)); auto. intros q Hq.
    apply (density_gradient_any c n (sample n tg q) (sample n y q) G (fun t => sample n (Y t) q)).
    intros i Hi. split; [now rewrite Ey|]. apply D. rewrite Sv, numel_cons. nia.
  Qed.

  Definition weight_error (J y : tensor R) (p : nat) : R :=
    agg_value_of (ll_agg l) b (fun q => bsum n (fun i => over y q i * entry J q i p)%R).
  Definition input_error (J y : tensor R) (q j : nat) : R := bsum n (fun i => over y q i * entry J q i j)%R.

  Lemma weight_gradient_any w0 h : smooth m x -> get_weight m = Ok w0 ->
    exists g J y, fwd m x = Ok y /\ snd (jacobian m st0 x None Weight) = Ok (Some J) /\
      snd (ll_gradient LogBernoulli l m h x (Some tg) Weight) = Ok (Some g) /\ wf g /\ shape g = [n_params m] /\
      forall w t0 dw, w t0 = w0 -> moves w t0 dw ->
      exists F, (forall t, exists m', set_weight m (w t) = (m', Ok tt) /\ forall h', snd (ll_forward LogBernoulli l m' h' x (Some tg)) = Ok (Some (mkT [] [F t]))) /\
        derivable_pt_lim F t0 (bsum (n_params m) (fun p => (nth p (data g) 0 + weight_error J y p) * nth p (data dw) 0))%R.
  Proof.
    intros Sm Gw. destruct (weight_derivative m s s' b x Ty Hb Wx Sx st0 w0 Sm Gw) as (J & EJ & WJ & SJ & D).
    destruct (gradient_flat LogBernoulli l m h x tg b s s' Weight Ty Hb Wx Sx Wt St Hk' ltac:(discriminate)) as (y & r & Fy & Wy & Sy & Wr & Sr & Hr & Eg).
    destruct (vjp_weight m s s' b x Ty Hb Wx Sx st0 st0 r Wr Sr) as [V _]. destruct (V (np_pos m s s' b Ty Hb w0 Gw)) as (J' & EJ' & _ & _ & EV).
    rewrite EJ in EJ'. injection EJ' as <-. rewrite EV in Eg. cbn [bind] in Eg. unfold vJ in Eg.
    destruct (agg_rows_value l b (n_params m) (fun q p => bsum n (fun i => nmul (get n0 r [q; i]) (entry J q i p))) Ra) as (g & E & Wg & Sg & Hg).
    rewrite E in Eg. exists g, J, y. split; auto. split; auto. split; auto. split; auto. split; auto. intros w t0 dw Ew Mw. destruct (D w t0 dw Ew Mw) as (Y & v & FY & MY & Sv & Hv).
    exists (fun t => agg_value_of (ll_agg l) b (dens (Y t))). split.
    - intros t. destruct (FY t) as (m' & Es & Ef). exists m'. split; auto. intros h'. destruct MY as (_ & M1 & _). destruct (M1 t) as [A B].
      apply (forward_value LogBernoulli l m s s' b tg Ty Hb Wt St Hk' Ra); auto; [now rewrite Sx|congruence].
    - assert (Y0 : Y t0 = y).
      { destruct (FY t0) as (m' & Es & Ef). rewrite Ew in Es. rewrite (get_set m w0 (proj1 typed_sized m s s' Ty) Gw) in Es. injection Es as <-. congruence. }
      eapply dl_eq; [exact (value_derivative_any Y t0 y v Y0 MY Sv)|].
      rewrite (bsum_ext (n_params m) _ (fun p => agg_value_of (ll_agg l) b (fun q => bsum n (fun i => (get 0 r [q; i] + over y q i) * entry J q i p) * nth p (data dw) 0)))%R.
      2:{ intros p Hp. rewrite Hg by auto. rewrite agg_mul_r. f_equal. unfold weight_error.
          rewrite <- (Rmult_1_l (agg_value_of _ b _)), <- (Rmult_1_l (agg_value_of _ b (fun q => bsum n (fun i => over y q i * _)%R))), <- agg_linear by auto.
          apply agg_ext. intros q Hq. rewrite !Rmult_1_l, <- bsumR_add. apply bsum_ext. intros i Hi. cbn [nmul n0 Num_R]. ring. }
      rewrite <- agg_bsum. apply agg_ext. intros q Hq.
      rewrite (bsum_ext (n_params m) _ (fun p => bsum n (fun i => (get 0 r [q; i] + over y q i) * entry J q i p * nth p (data dw) 0)%R)) by (intros; now rewrite bsumR_mul_r).
      rewrite (bsum_swap (n_params m) n (fun p i => (get 0 r [q; i] + over y q i) * entry J q i p * nth p (data dw) 0)%R). apply bsum_ext. intros i Hi.
      rewrite (bsum_ext (n_params m) _ (fun p => (get 0 r [q; i] + over y q i) * (entry J q i p * nth p (data dw) 0))%R) by (intros; ring). rewrite bsumR_mul_l.
      unfold sample at 3. rewrite Hv by auto. f_equal. f_equal. symmetry. exact (Hr q i Hq Hi).
  Qed.

  Lemma input_gradient_any h : smooth m x ->
    exists g gs J y, fwd m x = Ok y /\ snd (jacobian m st0 x None Input) = Ok (Some J) /\
      snd (ll_gradient LogBernoulli l m h x (Some tg) Input) = Ok (Some g) /\ wf g /\ shape g = [numel s] /\
      (forall j, j < numel s -> nth j (data g) 0%R = agg_value_of (ll_agg l) b (fun q => gs q j)) /\
      forall z t0 d, z t0 = x -> moves z t0 d ->
      exists F, (forall t h', snd (ll_forward LogBernoulli l m h' (z t) (Some tg)) = Ok (Some (mkT [] [F t]))) /\
        derivable_pt_lim F t0 (agg_value_of (ll_agg l) b (fun q => bsum (numel s) (fun j => (gs q j + input_error J y q j) * sample (numel s) d q j)%R)).
  Proof.
    intros Sm. destruct (input_derivative m s s' b x Ty Hb Wx Sx st0 Sm) as (J & EJ & WJ & SJ & D).
    destruct (gradient_flat LogBernoulli l m h x tg b s s' Input Ty Hb Wx Sx Wt St Hk' ltac:(discriminate)) as (y & r & Fy & Wy & Sy & Wr & Sr & Hr & Eg).
    destruct (vjp_input m s s' b x Ty Hb Wx Sx st0 st0 r Wr Sr) as (J' & EJ' & _ & _ & EV).
    rewrite EJ in EJ'. injection EJ' as <-. rewrite EV in Eg. cbn [bind] in Eg. unfold vJ in Eg.
    destruct (agg_rows_value l b (numel s) (fun q p => bsum n (fun i => nmul (get n0 r [q; i]) (entry J q i p))) Ra) as (g & E & Wg & Sg & Hg).
    rewrite E in Eg. exists g, (fun q p => bsum n (fun i => nmul (get n0 r [q; i]) (entry J q i p))), J, y. split; auto. split; auto. split; auto. split; auto. split; auto. split; [exact Hg|].
    intros z t0 d Ez Mz. destruct (D z t0 d Ez Mz) as (Y & FY & MY).
    destruct (jac_apply_ok b n (numel s) s' J d WJ SJ eq_refl) as (A1 & A2 & A3).
    exists (fun t => agg_value_of (ll_agg l) b (dens (Y t))). split.
    - intros t h'. destruct MY as (_ & M1 & _). destruct (M1 t) as [A B]. destruct Mz as (_ & Z1 & _). destruct (Z1 t) as [_ C]. destruct (Z1 t0) as [_ C0].
      rewrite Ez in C0. apply (forward_value LogBernoulli l m s s' b tg Ty Hb Wt St Hk' Ra); auto; [now rewrite C, <- C0, Sx|congruence].
    - assert (Y0 : Y t0 = y) by (specialize (FY t0); rewrite Ez in FY; congruence).
      eapply dl_eq; [exact (value_derivative_any Y t0 y _ Y0 MY A2)|]. apply agg_ext. intros q Hq.
      rewrite (bsum_ext (numel s) _ (fun p => bsum n (fun i => (get 0 r [q; i] + over y q i) * entry J q i p * sample (numel s) d q p)%R)).
      2:{ intros p Hp. rewrite bsumR_mul_r. f_equal. unfold input_error. rewrite <- bsumR_add. apply bsum_ext. intros i Hi. cbn [nmul n0 Num_R]. ring. }
      rewrite (bsum_swap (numel s) n (fun p i => (get 0 r [q; i] + over y q i) * entry J q i p * sample (numel s) d q p)%R). apply bsum_ext. intros i Hi.
      rewrite (bsum_ext (numel s) _ (fun p => (get 0 r [q; i] + over y q i) * (entry J q i p * sample (numel s) d q p))%R) by (intros; ring). rewrite bsumR_mul_l.
      assert (Ev : sample n (jac_apply s' J d) q i = bsum (numel s) (fun p => entry J q i p * sample (numel s) d q p)%R) by (apply A3; auto).
      rewrite Ev. f_equal. f_equal. symmetry. exact (Hr q i Hq Hi).
  Qed.
End Net.
