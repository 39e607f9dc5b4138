(** forward, gradient and ggn of the likelihoods on typed networks over the reals. *)
From Coq Require Import List Arith Lia Bool Reals Lra.
From Verif Require Import Scalar Sums Tensor TensorLemmas Conv Abstract Simple LinearLayer ConvLayer PoolLayer Module LogLik Spec Domain Smooth OpLemmas Jac
  LeafSpec TreeBase TreeVjp Leaves Trees ValArg Deriv LikSpec LikFlat LikCalc Calc Params.
Import ListNotations.
Local Open Scope nat_scope.
Local Open Scope list_scope.

Lemma init_fields a sh bp l : ll_init a sh bp = Ok l -> ll_agg l = a /\ ll_shape l = sh /\ ll_backprop l = bp.
Proof. unfold ll_init, check. destruct a, sh, bp; try discriminate; intros [= <-]; auto. Qed.
Lemma grouped_last k s : 0 < numel s -> (k = LogBernoulli -> s <> []) -> grouped k (last s 0) (numel s).
Proof.
  intros Hn Hs E. destruct (ravel_last s 0 0 (Hs E) Hn) as [_ [g Eg]]. split; [|eauto]. destruct (last s 0); [|lia]. rewrite Nat.mul_0_r in Eg. lia.
Qed.

Lemma agg_linear a b f g u v : reduces a -> agg_value_of a b (fun q => (u * f q + v * g q)%R) = (u * agg_value_of a b f + v * agg_value_of a b g)%R.
Proof.
  assert (E : bsum b (fun q => (u * f q + v * g q)%R) = (u * bsum b f + v * bsum b g)%R) by (rewrite bsumR_add, !bsumR_mul_l; reflexivity).
  intros [-> | ->]; cbn [agg_value_of]; rewrite E; unfold Rdiv; ring.
Qed.
Lemma agg_ext a b f g : (forall q, q < b -> f q = g q) -> agg_value_of a b f = agg_value_of a b g.
Proof. intros E. destruct a; cbn [agg_value_of]; now rewrite (bsum_ext b f g E). Qed.
Lemma agg_bsum a b n (f : nat -> nat -> R) : agg_value_of a b (fun q => bsum n (f q)) = bsum n (fun p => agg_value_of a b (fun q => f q p)).
Proof.
  destruct a; cbn [agg_value_of]; try (exact (bsum_swap b n f)).
  unfold Rdiv. rewrite (bsumR_mul_r n (/ INR b)). f_equal. exact (bsum_swap b n f).
Qed.
Lemma agg_mul_r a b f v : agg_value_of a b (fun q => f q * v)%R = (agg_value_of a b f * v)%R.
Proof. destruct a; cbn [agg_value_of]; rewrite bsumR_mul_r; unfold Rdiv; ring. Qed.
Lemma dl_agg a b (f : nat -> R -> R) d t0 : reduces a -> (forall q, q < b -> derivable_pt_lim (f q) t0 (d q)) ->
  derivable_pt_lim (fun t => agg_value_of a b (fun q => f q t)) t0 (agg_value_of a b d).
Proof.
  intros [-> | ->] D; cbn [agg_value_of].
  - now apply dl_bsum.
  - eapply dl_ext; [|eapply dl_eq; [apply (dl_scal (/ INR b)), (dl_bsum b f d t0 D)|]]; [intros t; cbv beta; unfold Rdiv; ring|unfold Rdiv; ring].
Qed.

(** aggregated values *)
Lemma agg_scalar_value l b (f : nat -> R) : reduces (ll_agg l) -> agg_scalar l (tab1 b f) = Some (mkT [] [agg_value_of (ll_agg l) b f]).
Proof.
  assert (E : sum_all (tab1 b f) = mkT [] [bsum b f]).
  { transitivity (mkT [] [bsum (numel [b]) (fun k => nth k (data (tab1 b f)) 0%R)]); [reflexivity|]. do 2 f_equal. rewrite numel_cons, numel_nil, Nat.mul_1_r.
    apply bsum_ext. intros q Hq. unfold tab1. rewrite flat_tab; [|rewrite numel_cons, numel_nil; lia]. cbn [unravel]. rewrite numel_nil, Nat.div_1_r. reflexivity. }
  unfold agg_scalar. intros [-> | ->]; cbn [agg_value_of]; [now rewrite E|]. unfold mean_all. rewrite E. cbn [shape tab1 tab emap map data]. rewrite numel_cons, numel_nil, Nat.mul_1_r, nnat_R. reflexivity.
Qed.
Definition at2 (t : tensor R) (i j : nat) : R := get 0%R t [i; j].
Lemma sum0_tab2 b n (f : nat -> nat -> R) : wf (sum0 (tab2 b n f)) /\ shape (sum0 (tab2 b n f)) = [n] /\
  forall p, p < n -> nth p (data (sum0 (tab2 b n f))) 0%R = bsum b (fun q => f q p).
Proof.
  split; [apply wf_tab|]. split; [reflexivity|]. intros p Hp. unfold sum0. rewrite flat_tab by (cbn; rewrite numel_cons, numel_nil; lia).
  cbn [shape tab2 tl tab unravel]. rewrite numel_nil, Nat.div_1_r. apply bsum_ext. intros q Hq. now rewrite get_tab2.
Qed.
Lemma agg_rows_value l b n f : reduces (ll_agg l) -> exists g, agg_rows l (Some (tab2 b n f)) = Ok (Some g) /\ wf g /\ shape g = [n] /\
  forall p, p < n -> nth p (data g) 0%R = agg_value_of (ll_agg l) b (fun q => f q p).
Proof.
  destruct (sum0_tab2 b n f) as (W & S0 & E). intros [A|A]; unfold agg_rows; rewrite A; cbn [need bind].
  - eexists. split; [reflexivity|]. auto.
  - eexists. split; [reflexivity|]. split; [now apply wf_emap|]. split; [exact S0|]. intros p Hp. cbn [agg_value_of]. unfold mean0.
    etransitivity; [exact (nth_emap (K := R) _ _ p ltac:(rewrite W, S0, numel_cons, numel_nil; lia))|]. etransitivity; [apply (f_equal (fun a => ndiv a _)), E; auto|]. cbn. now rewrite nnat_R.
Qed.

Section Net.
  Variables (k : lik) (l : loglik) (m : module R) (s s' : list nat) (b : nat) (x tg : tensor R).
  Hypothesis (Ty : typed m s s') (Hb : 0 < b) (Wx : wf x) (Sx : shape x = b :: s) (Wt : wf tg) (St : shape tg = b :: s').
  Hypothesis (Hk : k = LogBernoulli -> s' <> []) (Ra : reduces (ll_agg l)).
  Notation n := (numel s').
  Notation c := (last s' 0).
  Let G : grouped k c n.
  Proof. apply grouped_last; auto. exact (proj2 (typed_pos_m m s s' Ty)). Qed.

  Definition density (y : tensor R) (q : nat) : R := log_density k c n (sample n tg q) (sample n y q).
  Lemma forward_value (m' : module R) h (z y : tensor R) : hd_error (shape z) = Some b -> fwd m' z = Ok y -> wf y -> shape y = b :: s' ->
    snd (ll_forward k l m' h z (Some tg)) = Ok (Some (mkT [] [agg_value_of (ll_agg l) b (density y)])).
  Proof.
    intros Sz Fy Wy Sy. rewrite (forward_flat k l m' h z y tg b s') by auto. rewrite agg_scalar_value by auto. do 4 f_equal.
    apply agg_ext. intros q Hq. exact (term_density k c n (sample n tg q) (sample n y q) G).
  Qed.
  (** the value along a curve of outputs *)
  Lemma value_derivative (Y : R -> tensor R) t0 y v : Y t0 = y -> moves Y t0 v -> shape v = b :: s' -> (forall q, q < b -> proper k c n (sample n tg q)) ->
    derivable_pt_lim (fun t => agg_value_of (ll_agg l) b (density (Y t))) t0
      (agg_value_of (ll_agg l) b (fun q => bsum n (fun i => (sample n tg q i - prob k c (sample n y q) i) * sample n v q i)%R)).
  Proof.
    intros Ey (Wv & _ & D) Sv Pr. apply (dl_agg _ b (fun q t => density (Y t) q)); auto. intros q Hq.
    apply (density_gradient k c n (sample n tg q) (sample n y q) G (Pr q Hq) (fun t => sample n (Y t) q)).
    intros i Hi. split; [now rewrite Ey|]. apply D. rewrite Sv, numel_cons. nia.
  Qed.

  (** the gradient in the weights *)
  Lemma weight_gradient w0 h : smooth m x -> get_weight m = Ok w0 -> (forall q, q < b -> proper k c n (sample n tg q)) ->
    exists g, snd (ll_gradient k l m h x (Some tg) Weight) = Ok (Some g) /\ wf g /\ shape g = [n_params m] /\
      forall w t0 dw, w t0 = w0 -> moves w t0 dw ->
      exists F, (forall t, exists m', set_weight m (w t) = (m', Ok tt) /\ forall h', snd (ll_forward k l m' h' x (Some tg)) = Ok (Some (mkT [] [F t]))) /\
        derivable_pt_lim F t0 (bsum (n_params m) (fun p => nth p (data g) 0 * nth p (data dw) 0))%R.
  Proof.
    intros Sm Gw Pr. destruct (weight_derivative m s s' b x Ty Hb Wx Sx st0 w0 Sm Gw) as (J & EJ & WJ & SJ & D).
    destruct (gradient_flat k l m h x tg b s s' Weight Ty Hb Wx Sx Wt St Hk ltac:(discriminate)) as (y & r & Fy & Wy & Sy & Wr & Sr & Hr & Eg).
    destruct (vjp_weight m s s' b x Ty Hb Wx Sx st0 st0 r Wr Sr) as [V _]. destruct (V (np_pos m s s' b Ty Hb w0 Gw)) as (J' & EJ' & _ & _ & EV).
    rewrite EJ in EJ'. injection EJ' as <-. rewrite EV in Eg. cbn [bind] in Eg. unfold vJ in Eg.
    destruct (agg_rows_value l b (n_params m) (fun q p => bsum n (fun i => nmul (get n0 r [q; i]) (entry J q i p))) Ra) as (g & E & Wg & Sg & Hg).
    rewrite E in Eg. exists g. split; auto. split; auto. split; auto. intros w t0 dw Ew Mw. destruct (D w t0 dw Ew Mw) as (Y & v & FY & MY & Sv & Hv).
    exists (fun t => agg_value_of (ll_agg l) b (density (Y t))). split.
    - intros t. destruct (FY t) as (m' & Es & Ef). exists m'. split; auto. intros h'. destruct MY as (_ & M1 & _). destruct (M1 t) as [A B].
      apply forward_value; auto; [now rewrite Sx|congruence].
    - assert (Y0 : Y t0 = y).
      { destruct (FY t0) as (m' & Es & Ef). rewrite Ew in Es. rewrite (get_set m w0 (proj1 typed_sized m s s' Ty) Gw) in Es. injection Es as <-. congruence. }
      eapply dl_eq; [exact (value_derivative Y t0 y v Y0 MY Sv Pr)|].
      rewrite (bsum_ext (n_params m) _ (fun p => agg_value_of (ll_agg l) b (fun q => bsum n (fun i => get 0 r [q; i] * entry J q i p) * nth p (data dw) 0)))%R.
      2:{ intros p Hp. rewrite Hg by auto. rewrite agg_mul_r. reflexivity. }
      rewrite <- agg_bsum. apply agg_ext. intros q Hq.
      rewrite (bsum_ext (n_params m) _ (fun p => bsum n (fun i => get 0 r [q; i] * entry J q i p * nth p (data dw) 0)%R)) by (intros; now rewrite bsumR_mul_r).
      rewrite (bsum_swap (n_params m) n (fun p i => get 0 r [q; i] * entry J q i p * nth p (data dw) 0)%R). apply bsum_ext. intros i Hi.
      rewrite (bsum_ext (n_params m) _ (fun p => get 0 r [q; i] * (entry J q i p * nth p (data dw) 0))%R) by (intros; ring). rewrite bsumR_mul_l.
      unfold sample at 3. rewrite Hv by auto. f_equal. symmetry. exact (Hr q i Hq Hi).
  Qed.

  (** the gradient in the inputs: the gradients of the samples, aggregated *)
  Lemma input_gradient h : smooth m x -> (forall q, q < b -> proper k c n (sample n tg q)) ->
    exists g gs, snd (ll_gradient k l m h x (Some tg) Input) = Ok (Some g) /\ wf g /\ shape g = [numel s] /\
      (forall j, j < numel s -> nth j (data g) 0%R = agg_value_of (ll_agg l) b (fun q => gs q j)) /\
      forall z t0 d, z t0 = x -> moves z t0 d ->
      exists F, (forall t h', snd (ll_forward k l m h' (z t) (Some tg)) = Ok (Some (mkT [] [F t]))) /\
        derivable_pt_lim F t0 (agg_value_of (ll_agg l) b (fun q => bsum (numel s) (fun j => gs q j * sample (numel s) d q j)%R)).
  Proof.
    intros Sm Pr. destruct (input_derivative m s s' b x Ty Hb Wx Sx st0 Sm) as (J & EJ & WJ & SJ & D).
    destruct (gradient_flat k l m h x tg b s s' Input Ty Hb Wx Sx Wt St Hk ltac:(discriminate)) as (y & r & Fy & Wy & Sy & Wr & Sr & Hr & Eg).
    destruct (vjp_input m s s' b x Ty Hb Wx Sx st0 st0 r Wr Sr) as (J' & EJ' & _ & _ & EV).
    rewrite EJ in EJ'. injection EJ' as <-. rewrite EV in Eg. cbn [bind] in Eg. unfold vJ in Eg.
    destruct (agg_rows_value l b (numel s) (fun q p => bsum n (fun i => nmul (get n0 r [q; i]) (entry J q i p))) Ra) as (g & E & Wg & Sg & Hg).
    rewrite E in Eg. exists g, (fun q p => bsum n (fun i => nmul (get n0 r [q; i]) (entry J q i p))). split; auto. split; auto. split; auto. split; [exact Hg|].
    intros z t0 d Ez Mz. destruct (D z t0 d Ez Mz) as (Y & FY & MY).
    destruct (jac_apply_ok b n (numel s) s' J d WJ SJ eq_refl) as (A1 & A2 & A3).
    exists (fun t => agg_value_of (ll_agg l) b (density (Y t))). split.
    - intros t h'. destruct MY as (_ & M1 & _). destruct (M1 t) as [A B]. destruct Mz as (_ & Z1 & _). destruct (Z1 t) as [_ C]. destruct (Z1 t0) as [_ C0].
      rewrite Ez in C0. apply forward_value; auto; [now rewrite C, <- C0, Sx|congruence].
    - assert (Y0 : Y t0 = y) by (specialize (FY t0); rewrite Ez in FY; congruence).
      eapply dl_eq; [exact (value_derivative Y t0 y _ Y0 MY A2 Pr)|]. apply agg_ext. intros q Hq.
      rewrite (bsum_ext (numel s) _ (fun p => bsum n (fun i => get 0 r [q; i] * entry J q i p * sample (numel s) d q p)%R)) by (intros; now rewrite bsumR_mul_r).
      rewrite (bsum_swap (numel s) n (fun p i => get 0 r [q; i] * entry J q i p * sample (numel s) d q p)%R). apply bsum_ext. intros i Hi.
      rewrite (bsum_ext (numel s) _ (fun p => get 0 r [q; i] * (entry J q i p * sample (numel s) d q p))%R) by (intros; ring). rewrite bsumR_mul_l.
      assert (Ev : sample n (jac_apply s' J d) q i = bsum (numel s) (fun p => entry J q i p * sample (numel s) d q p)%R) by (apply A3; auto).
      rewrite Ev. f_equal. symmetry. exact (Hr q i Hq Hi).
  Qed.
End Net.
