(** Proofs about the worked example (Notebook.v). *)
From Coq Require Import List Arith Lia Bool Reals Lra.
From Verif Require Import Scalar Sums Tensor TensorLemmas Conv Abstract Simple LinearLayer ConvLayer PoolLayer Module LogLik Utils Spec Domain Smooth OpLemmas Jac
  LeafSpec TreeBase TreeVjp Leaves Trees ValArg Deriv LikSpec LikFlat LikCalc LikGrad LikHess LikMain Calc Params DiagSpec DiagBack DiagExact Notebook.
Import ListNotations.
Local Open Scope nat_scope.
Local Open Scope list_scope.

Lemma flat_add (a c : tensor R) : wf a -> wf c -> shape a = shape c ->
  exists r, tadd a c = Ok r /\ wf r /\ shape r = shape a /\ forall k, k < numel (shape a) -> nth k (data r) 0%R = (nth k (data a) 0 + nth k (data c) 0)%R.
Proof. exact (bop_flat (K := R) nadd a c). Qed.

(** the training step *)
Lemma step_gradient (m : module R) (s s' : list nat) (b : nat) (x tg w0 : tensor R) h :
  typed m s s' -> 0 < b -> wf x -> shape x = b :: s -> smooth m x -> get_weight m = Ok w0 -> wf tg -> shape tg = b :: s' ->
  exists m' w1, fst (fst (train_step m h x tg)) = m' /\ snd (train_step m h x tg) = Ok tt /\ arch m m' /\ get_weight m' = Ok w1 /\
    forall w t0 dw, w t0 = w0 -> moves w t0 dw ->
    exists F Y, (forall t, exists m'', set_weight m (w t) = (m'', Ok tt) /\ fwd m'' x = Ok (Y t)) /\
      (forall t, F t = bsum b (fun q => bsum (numel s') (fun i => - (1 / 2) * (sample (numel s') (Y t) q i - sample (numel s') tg q i)^2)))%R /\
      derivable_pt_lim F t0 (bsum (n_params m) (fun p => (nth p (data w1) 0 - nth p (data w0) 0) * nth p (data dw) 0))%R.
Proof.
  intros Ty Hb Wx Sx Sm Gw Wt St.
  destruct (gradient_weight_plain LogGaussian ltac:(discriminate) AggSum MDiag MExact _ m s s' b x tg w0 h eq_refl (or_introl eq_refl) Ty Hb Wx Sx Sm Gw Wt St) as (g & Eg & Wg & Sg & D).
  destruct (fwd_total m s s' b x Ty Hb Wx Sx) as (y & Fy & Wy & Sy).
  assert (Sz := proj1 typed_sized m s s' Ty). destruct (count_weight m w0 Sz Gw) as [W0 S0].
  destruct (flat_add w0 g W0 Wg ltac:(congruence)) as (w1 & Ew & W1 & S1 & H1).
  assert (Np : params m <> []). { intros E. rewrite (get_weight_none m E) in Gw. discriminate. }
  destruct (set_get m w1 Sz Np ltac:(congruence) W1) as (m' & Es & Ar & _ & Gw').
  assert (E : train_step m h x tg = (m', snd (fst (train_step m h x tg)), Ok tt)).
  { unfold ll_gradient in Eg. unfold train_step. unfold size in *. rewrite Sx in *. cbn [nth_error] in *.
    rewrite (fwd_state m x y h Fy) in *. cbn [bind same_shape] in *.
    rewrite Sy, St in Eg. unfold shape_eqb in Eg. destruct (list_eq_dec Nat.eq_dec (b :: s') (b :: s')) as [_|NE] in Eg; [|now destruct NE].
    cbn [check bind residual] in Eg. destruct (tsub tg y) as [rs|]; cbn [bind] in *; [|discriminate]. destruct (flat b rs) as [v|]; cbn [bind] in *; [|discriminate].
    destruct (vjp m _ x (Some y) v Weight) as [h1 r]. cbn [snd fst] in *. destruct r as [[G|]|]; cbn [bind need agg_rows ll_agg] in *; try discriminate.
    injection Eg as Eg. rewrite Gw. cbn [bind]. rewrite Eg, Ew. cbn [bind]. rewrite Es. reflexivity. }
  exists m', w1. rewrite E. split; [reflexivity|]. split; [reflexivity|]. split; auto. split; auto.
  intros w t0 dw Hw Mw. destruct (D w t0 dw Hw Mw) as (F & HF & DF).
  destruct (weight_derivative m s s' b x Ty Hb Wx Sx st0 w0 Sm Gw) as (J & EJ & WJ & SJ & D2). destruct (D2 w t0 dw Hw Mw) as (Y & v & FY & MY & Sv & Hv).
  exists F, Y. split; [exact FY|]. split.
  - intros t. destruct (HF t) as (m1 & E1 & F1). destruct (FY t) as (m2 & E2 & F2). rewrite E1 in E2. injection E2 as <-.
    destruct MY as (_ & M1 & _). destruct (M1 t) as [Wt' St']. specialize (F1 st0).
    rewrite (forward_value LogGaussian {| ll_agg := AggSum; ll_shape := MDiag; ll_backprop := MExact |} m s s' b tg Ty Hb Wt St ltac:(discriminate) (or_introl eq_refl) m1 st0 x (Y t)) in F1;
      auto; [|now rewrite Sx|congruence]. injection F1 as <-. reflexivity.
  - eapply dl_eq; [exact DF|]. apply bsum_ext. intros p Hp. rewrite H1; [cbn; ring|]. rewrite S0, numel_cons, numel_nil. lia.
Qed.

(** the precision and the standard deviations *)
Lemma laplace_value hooks ms (s s' : list nat) (b : nat) (x : tensor R) h : let m := Seq hooks ms in
  typed m s s' -> all_sym m -> 0 < b -> wf x -> shape x = b :: s -> n_params m <> 0 ->
  exists p sd, snd (laplace m h x) = Ok (p, sd) /\ wf p /\ shape p = [n_params m] /\ wf sd /\ shape sd = [n_params m] /\
    forall k, k < n_params m ->
      nth k (data p) 0%R = (1 + bsum b (fun q => dpullw m x (fun _ _ => 1) q k))%R /\ (1 <= nth k (data p) 0)%R /\
      (0 < nth k (data sd) 0 <= 1)%R /\ (nth k (data sd) 0 * nth k (data sd) 0 * nth k (data p) 0 = 1)%R.
Proof.
  intros m Ty Sy Hb Wx Sx Np. destruct (default_metric hooks ms s s' b h x Ty Sy Hb Wx Sx) as [E _]. fold m in E.
  apply Nat.eqb_neq in Np. rewrite Np in E. apply Nat.eqb_neq in Np.
  destruct (sum0_tab2 b (n_params m) (dpullw m x (fun _ _ => n1))) as (Wp & Sp & Hp).
  set (t := tab2 b (n_params m) (dpullw m x (fun _ _ => n1))) in *.
  assert (Wo : wf (@ones R _ [n_params m])) by apply wf_tab.
  destruct (flat_add (sum0 t) (ones [n_params m]) Wp Wo Sp) as (p & Ep & Wp' & Sp' & Hp').
  exists p, (emap nsqrt (emap (ndiv n1) p)). unfold laplace. destruct (jTmjp m h x None VNone Weight true true true) as [h1 r]. cbn [snd] in *. subst r.
  cbn [bind to_tensor]. rewrite Ep. cbn [bind]. split; [reflexivity|]. split; auto. split; [congruence|]. split; [apply wf_emap, wf_emap; auto|]. split; [exact (eq_trans Sp' Sp)|].
  intros k Hk.
  assert (Ek : nth k (data p) 0%R = (1 + bsum b (fun q => dpullw m x (fun _ _ => 1) q k))%R).
  { rewrite Hp' by (rewrite Sp, numel_cons, numel_nil; lia). rewrite Hp by auto. unfold ones, fill_with. rewrite (flat_tab (A := R)) by (rewrite numel_cons, numel_nil; lia). cbn [n1 Num_R]. ring. }
  assert (P1 : (1 <= nth k (data p) 0)%R).
  { rewrite Ek. enough (0 <= bsum b (fun q => dpullw m x (fun _ _ => 1) q k))%R by lra. apply bsum_nonneg. intros q Hq.
    apply (dback_nneg m s s' b x (fun _ _ => 1%R) Ty Hb Wx Sx); auto. intros; lra. }
  split; [exact Ek|]. split; [exact P1|].
  assert (Es : nth k (data (emap nsqrt (emap (ndiv n1) p))) 0%R = sqrt (1 / nth k (data p) 0%R)%R).
  { assert (L : k < length (data p)). { rewrite Wp', Sp', Sp, numel_cons, numel_nil. lia. }
    etransitivity; [exact (nth_emap (K := R) nsqrt (emap (ndiv n1) p) k ltac:(cbn [data emap]; rewrite map_length; exact L))|]. cbn [nsqrt Num_R]. f_equal. exact (nth_emap (K := R) _ p k L). }
  rewrite Es. set (z := nth k (data p) 0%R) in *. assert (0 < 1 / z)%R by (apply Rdiv_lt_0_compat; lra).
  split; [split|].
  - now apply sqrt_lt_R0.
  - apply Rle_trans with (sqrt 1); [|rewrite sqrt_1; lra]. apply sqrt_le_1_alt. unfold Rdiv. rewrite Rmult_1_l, <- Rinv_1 at 1. apply Rinv_le_contravar; lra.
  - rewrite sqrt_sqrt by lra. field. lra.
Qed.

(** the sampled weights are std * eps: the mean does not enter *)
Lemma sampled_weight (m : module R) (std eps x : tensor R) h : sized m -> params m <> [] ->
  wf std -> shape std = [n_params m] -> wf eps -> shape eps = [n_params m] ->
  exists w, get_weight (fst (fst (sample_prediction m h std eps x))) = Ok w /\
    forall k, k < n_params m -> nth k (data w) 0%R = (nth k (data std) 0 * nth k (data eps) 0)%R.
Proof.
  intros Sz Np Wd Sd We Se. destruct (bop_flat (K := R) nmul std eps Wd We ltac:(congruence)) as (w & Ew & Ww & Sw & Hw).
  destruct (set_get m w Sz Np ltac:(congruence) Ww) as (m' & Es & _ & _ & Gw').
  exists w. unfold sample_prediction. change (tmul std eps) with (bop nmul std eps). rewrite Ew, Es. destruct (forward m' h x) as [h1 r]. cbn [fst]. split; auto.
  intros k Hk. apply Hw. rewrite Sd, numel_cons, numel_nil. lia.
Qed.
