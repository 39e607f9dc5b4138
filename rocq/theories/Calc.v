(** Derivatives of the scalar functions and of finite sums. *)
From Coq Require Import List Arith Lia Bool Reals Lra.
From Verif Require Import Scalar Sums Tensor Abstract Simple Jac Smooth.
Import ListNotations.
Local Open Scope R_scope.

Lemma dl_eq f x l l' : derivable_pt_lim f x l -> l = l' -> derivable_pt_lim f x l'.
Proof. now intros H <-. Qed.
Lemma dl_ext f g x l : (forall t, f t = g t) -> derivable_pt_lim f x l -> derivable_pt_lim g x l.
Proof. intros E H e He. destruct (H e He) as [d Hd]. exists d. intros h. rewrite <- !E. apply Hd. Qed.
Lemma dl_local f g x l (d : R) : 0 < d -> (forall h, Rabs h < d -> f (x + h) = g (x + h)) ->
  derivable_pt_lim f x l -> derivable_pt_lim g x l.
Proof.
  intros Hd E H e He. destruct (H e He) as [d' Hd'].
  assert (P : 0 < Rmin d d') by (apply Rmin_pos; [auto|apply cond_pos]). exists (mkposreal _ P). intros h Hn Hh. cbn in Hh.
  pose proof (Rmin_l d d'). pose proof (Rmin_r d d'). rewrite <- E by lra.
  assert (E0 : f x = g x). { rewrite <- (Rplus_0_r x). apply E. rewrite Rabs_R0. lra. }
  rewrite <- E0. apply Hd'; auto. lra.
Qed.
Lemma dl_const c x : derivable_pt_lim (fun _ => c) x 0.
Proof. apply (derivable_pt_lim_const c x). Qed.
Lemma dl_id x : derivable_pt_lim (fun t => t) x 1.
Proof. apply (derivable_pt_lim_id x). Qed.
Lemma dl_plus f g x l l' : derivable_pt_lim f x l -> derivable_pt_lim g x l' -> derivable_pt_lim (fun t => f t + g t) x (l + l').
Proof. apply (derivable_pt_lim_plus f g x l l'). Qed.
Lemma dl_minus f g x l l' : derivable_pt_lim f x l -> derivable_pt_lim g x l' -> derivable_pt_lim (fun t => f t - g t) x (l - l').
Proof. apply (derivable_pt_lim_minus f g x l l'). Qed.
Lemma dl_opp f x l : derivable_pt_lim f x l -> derivable_pt_lim (fun t => - f t) x (- l).
Proof. apply (derivable_pt_lim_opp f x l). Qed.
Lemma dl_mult f g x l l' : derivable_pt_lim f x l -> derivable_pt_lim g x l' -> derivable_pt_lim (fun t => f t * g t) x (l * g x + f x * l').
Proof. apply (derivable_pt_lim_mult f g x l l'). Qed.
Lemma dl_scal a f x l : derivable_pt_lim f x l -> derivable_pt_lim (fun t => a * f t) x (a * l).
Proof. apply (derivable_pt_lim_scal f a x l). Qed.
Lemma dl_comp f g x l l' : derivable_pt_lim f x l -> derivable_pt_lim g (f x) l' -> derivable_pt_lim (fun t => g (f t)) x (l' * l).
Proof. apply (derivable_pt_lim_comp f g x l l'). Qed.
Lemma dl_inv f x l : derivable_pt_lim f x l -> f x <> 0 -> derivable_pt_lim (fun t => 1 / f t) x (- l / (f x * f x)).
Proof.
  intros H Hn. pose proof (derivable_pt_lim_div (fct_cte 1) f x 0 l (derivable_pt_lim_const 1 x) H Hn) as D.
  eapply dl_eq; [exact D|]. unfold fct_cte, Rsqr. field. auto.
Qed.
Lemma dl_bsum n (f : nat -> R -> R) d x : (forall k, (k < n)%nat -> derivable_pt_lim (f k) x (d k)) ->
  derivable_pt_lim (fun t => bsum n (fun k => f k t)) x (bsum n d).
Proof.
  induction n as [|n IH]; intros H; [exact (dl_const 0 x)|].
  apply (dl_plus (fun t => bsum n (fun k => f k t)) (f n) x); [apply IH; auto|apply H; lia].
Qed.
Lemma dl_cont f x l : derivable_pt_lim f x l -> forall e, 0 < e -> exists d, 0 < d /\ forall h, Rabs h < d -> Rabs (f (x + h) - f x) < e.
Proof.
  intros H e He. destruct (H 1 Rlt_0_1) as [d Hd].
  assert (B : 0 < Rabs l + 1) by (pose proof (Rabs_pos l); lra).
  exists (Rmin d (e / (Rabs l + 1))). split; [apply Rmin_pos; [apply cond_pos|apply Rdiv_lt_0_compat; lra]|].
  intros h Hh. destruct (Req_dec h 0) as [->|Hn].
  - rewrite Rplus_0_r, Rminus_diag_eq, Rabs_R0 by auto. lra.
  - pose proof (Rmin_l d (e / (Rabs l + 1))). pose proof (Rmin_r d (e / (Rabs l + 1))).
    specialize (Hd h Hn ltac:(lra)). set (q := (f (x + h) - f x) / h) in *.
    replace (f (x + h) - f x) with (q * h) by (unfold q; field; auto). rewrite Rabs_mult.
    assert (Rabs q < Rabs l + 1). { replace q with ((q - l) + l) by ring. pose proof (Rabs_triang (q - l) l). lra. }
    apply Rle_lt_trans with ((Rabs l + 1) * Rabs h); [apply Rmult_le_compat_r; [apply Rabs_pos|lra]|].
    apply Rlt_le_trans with ((Rabs l + 1) * (e / (Rabs l + 1))); [apply Rmult_lt_compat_l; lra|].
    right. field. lra.
Qed.
(** an inequality between continuous functions persists *)
Lemma dl_lt f g x l l' : derivable_pt_lim f x l -> derivable_pt_lim g x l' -> f x < g x ->
  exists d, 0 < d /\ forall h, Rabs h < d -> f (x + h) < g (x + h).
Proof.
  intros F G L. destruct (dl_cont f x l F ((g x - f x) / 2)) as (d1 & P1 & H1); [lra|].
  destruct (dl_cont g x l' G ((g x - f x) / 2)) as (d2 & P2 & H2); [lra|].
  exists (Rmin d1 d2). split; [now apply Rmin_pos|]. intros h Hh. pose proof (Rmin_l d1 d2). pose proof (Rmin_r d1 d2).
  specialize (H1 h ltac:(lra)). specialize (H2 h ltac:(lra)). apply Rabs_def2 in H1, H2. lra.
Qed.

(** *** scalar functions *)
Lemma exp_plus_1_neq y : 1 + exp y <> 0.
Proof. pose proof (exp_pos y). lra. Qed.
Lemma dl_exp x : derivable_pt_lim exp x (exp x). Proof. apply derivable_pt_lim_exp. Qed.
Lemma dl_sigmoid x : derivable_pt_lim (@sigmoid R _) x (sigmoid x * (1 - sigmoid x)).
Proof.
  assert (D : derivable_pt_lim (fun t => 1 + exp (- t)) x (0 + exp (- x) * - (1))).
  { apply dl_plus; [apply dl_const|]. apply (dl_comp (fun t => - t) exp); [apply dl_opp, dl_id|apply dl_exp]. }
  eapply dl_eq; [exact (dl_inv _ _ _ D (exp_plus_1_neq _))|]. unfold sigmoid. cbn.
  pose proof (exp_plus_1_neq (- x)). field. auto.
Qed.
Lemma dl_sinh x : derivable_pt_lim sinh x (cosh x). Proof. apply derivable_pt_lim_sinh. Qed.
Lemma dl_cosh x : derivable_pt_lim cosh x (sinh x). Proof. apply derivable_pt_lim_cosh. Qed.
Lemma cosh_pos x : 0 < cosh x.
Proof. unfold cosh. pose proof (exp_pos x). pose proof (exp_pos (- x)). lra. Qed.
Lemma dl_tanh x : derivable_pt_lim tanh x (1 - tanh x * tanh x).
Proof.
  pose proof (cosh_pos x). assert (Hn : cosh x <> 0) by lra.
  eapply dl_eq; [exact (derivable_pt_lim_div sinh cosh x _ _ (dl_sinh x) (dl_cosh x) Hn)|].
  unfold tanh, Rsqr. field. auto.
Qed.
Lemma nnat_R n : @nnat R _ n = INR n.
Proof. induction n as [|n IH]; [reflexivity|]. rewrite S_INR. cbn [nnat]. rewrite IH. reflexivity. Qed.
Lemma nltb_true (a b : R) : a < b -> nltb a b = true.
Proof. intros H. cbn. destruct (Rlt_dec a b); [auto|lra]. Qed.
Lemma nltb_false (a b : R) : b <= a -> nltb a b = false.
Proof. intros H. cbn. destruct (Rlt_dec a b); [lra|auto]. Qed.
Lemma clamp_in (v : R) : -15 <= v <= 15 -> clamp15 v = v.
Proof.
  intros H. unfold clamp15. assert (E : @nnat R _ 15 = 15) by (rewrite nnat_R; cbn; lra). rewrite E.
  rewrite (nltb_false v (nopp 15)), (nltb_false 15 v); auto; cbn; lra.
Qed.
Lemma clamp_above (v : R) : 15 < v -> clamp15 v = 15.
Proof.
  intros H. unfold clamp15. assert (E : @nnat R _ 15 = 15) by (rewrite nnat_R; cbn; lra). rewrite E.
  rewrite (nltb_false v (nopp 15)), (nltb_true 15 v); auto; cbn; lra.
Qed.
Lemma clamp_below (v : R) : v < -15 -> clamp15 v = -15.
Proof.
  intros H. unfold clamp15. assert (E : @nnat R _ 15 = 15) by (rewrite nnat_R; cbn; lra). rewrite E.
  rewrite (nltb_true v (nopp 15)); [reflexivity|cbn; lra].
Qed.
Lemma dl_relu (v : R) : v <> 0 -> derivable_pt_lim (act_fun (@ReLU R)) v (act_d ReLU v).
Proof.
  intros Hn. cbn [act_fun act_d]. unfold npos. destruct (Rlt_dec 0 v) as [L|L].
  - rewrite (nltb_true n0 v) by auto. rewrite (nltb_true n0 v) by auto.
    apply (dl_local (fun t => t) _ v n1 v L); [|apply dl_id].
    intros h Hh. apply Rabs_def2 in Hh. cbn [act_fun]. rewrite nltb_true; [reflexivity|cbn; lra].
  - rewrite (nltb_false n0 v) by (cbn; lra). rewrite (nltb_false n0 n0) by (cbn; lra).
    apply (dl_local (fun t => 0) _ v n0 (- v)); [lra| |apply dl_const].
    intros h Hh. apply Rabs_def2 in Hh. cbn [act_fun]. rewrite nltb_false; [reflexivity|cbn; lra].
Qed.
Lemma dl_softplus_core beta v : beta <> 0 -> derivable_pt_lim (fun t => ln (1 + exp (beta * t)) / beta) v (sigmoid (beta * v)).
Proof.
  intros Hb.
  assert (D : derivable_pt_lim (fun t => 1 + exp (beta * t)) v (0 + exp (beta * v) * (beta * 1))).
  { apply dl_plus; [apply dl_const|]. apply (dl_comp (fun t => beta * t) exp); [apply dl_scal, dl_id|apply dl_exp]. }
  assert (P : 0 < 1 + exp (beta * v)) by (pose proof (exp_pos (beta * v)); lra).
  pose proof (dl_comp _ ln v _ _ D (derivable_pt_lim_ln _ P)) as D2.
  apply (dl_scal (/ beta)) in D2.
  eapply dl_ext; [|eapply dl_eq; [exact D2|]].
  - intros t. cbn beta. unfold Rdiv. ring.
  - unfold sigmoid. cbn. rewrite exp_Ropp. pose proof (exp_pos (beta * v)). field. lra.
Qed.
Lemma dl_softplus beta thr v : beta <> 0 -> beta * v < thr -> derivable_pt_lim (act_fun (Softplus beta thr)) v (act_d (Softplus beta thr) v).
Proof.
  intros Hb L. destruct (dl_lt (fun t => beta * t) (fun _ => thr) v (beta * 1) 0) as (d & Pd & Hd); auto.
  - apply dl_scal, dl_id.
  - apply dl_const.
  - apply (dl_local (fun t => ln (1 + exp (beta * t)) / beta) _ v _ d Pd); [|now apply dl_softplus_core].
    intros h Hh. specialize (Hd h Hh). cbn [act_fun]. rewrite nltb_false; [reflexivity|cbn; lra].
Qed.
Lemma dl_act (a : act R) v : act_smooth a v -> derivable_pt_lim (act_fun a) v (act_d a v).
Proof.
  destruct a; cbn [act_smooth]; intros H.
  - apply dl_tanh.
  - now apply dl_relu.
  - apply dl_sigmoid.
  - apply derivable_pt_lim_sin.
  - destruct H. now apply dl_softplus.
  - cbn [act_fun act_d]. rewrite clamp_in by auto. apply dl_exp.
Qed.
Lemma bsum_nonneg n (f : nat -> R) : (forall k, (k < n)%nat -> 0 <= f k) -> 0 <= bsum n f.
Proof. induction n as [|n IH]; cbn; intros H; [lra|]. specialize (IH ltac:(auto)). specialize (H n ltac:(lia)). lra. Qed.
Lemma bsum_ge n (f : nat -> R) k : (forall k, (k < n)%nat -> 0 <= f k) -> (k < n)%nat -> f k <= bsum n f.
Proof.
  induction n as [|n IH]; intros H Hk; [lia|]. cbn. destruct (Nat.eq_dec k n) as [->|Hn].
  - assert (0 <= bsum n f) by (apply bsum_nonneg; auto). lra.
  - assert (f k <= bsum n f) by (apply IH; auto; lia). specialize (H n ltac:(lia)). lra.
Qed.
Lemma bsum_pos n (f : nat -> R) k : (forall k, (k < n)%nat -> 0 <= f k) -> (k < n)%nat -> 0 < f k -> 0 < bsum n f.
Proof. intros H Hk P. pose proof (bsum_ge n f k H Hk). lra. Qed.
Lemma bsumR_add n (f g : nat -> R) : bsum n (fun i => f i + g i) = bsum n f + bsum n g.
Proof. exact (bsum_add n f g). Qed.
Lemma bsumR_sub n (f g : nat -> R) : bsum n (fun i => f i - g i) = bsum n f - bsum n g.
Proof. exact (bsum_sub n f g). Qed.
Lemma bsumR_mul_l n a (f : nat -> R) : bsum n (fun i => a * f i) = a * bsum n f.
Proof. exact (bsum_mul_l n a f). Qed.
Lemma bsumR_mul_r n a (f : nat -> R) : bsum n (fun i => f i * a) = bsum n f * a.
Proof. exact (bsum_mul_r n a f). Qed.
Lemma bsumR_delta n k (f : nat -> R) : (k < n)%nat -> bsum n (fun i => delta k i * f i) = f k.
Proof. exact (bsum_delta_l n k f). Qed.
