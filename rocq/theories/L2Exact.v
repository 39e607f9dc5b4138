(** L2Norm with a positive eps: the derivative of forward, and the error of jacobian. *)
From Coq Require Import List Arith Lia Bool Reals Lra.
From Verif Require Import Scalar Sums Tensor TensorLemmas Conv Abstract Simple LinearLayer ConvLayer PoolLayer Module Spec Domain Jac
  OpLemmas Smooth LeafAct ReshapeLemmas Calc DerivLeaf Deriv LinDeriv.
Import ListNotations.
Local Open Scope nat_scope.
Local Open Scope list_scope.

Lemma dl_zero_mul (u g : R -> R) t0 du : u t0 = 0%R -> derivable_pt_lim u t0 du -> continuity_pt g t0 ->
  derivable_pt_lim (fun t => u t * g t)%R t0 (du * g t0)%R.
Proof.
  intros U D C eps He.
  assert (P1 : (0 < eps / (2 * (Rabs (g t0) + 1)))%R) by (apply Rdiv_lt_0_compat; [lra|]; pose proof (Rabs_pos (g t0)); lra).
  assert (P2 : (0 < Rmin 1 (eps / (2 * (Rabs du + 1))))%R).
  { apply Rmin_glb_lt; [lra|]. apply Rdiv_lt_0_compat; [lra|]; pose proof (Rabs_pos du); lra. }
  destruct (D _ P1) as [d1 H1]. destruct (C _ P2) as (d2 & Pd2 & H2).
  assert (Pm : (0 < Rmin d1 d2)%R) by (apply Rmin_glb_lt; [apply (cond_pos d1)|exact Pd2]).
  exists (mkposreal _ Pm). intros h Nh Lh. cbn [pos] in Lh.
  specialize (H1 h Nh (Rlt_le_trans _ _ _ Lh (Rmin_l _ _))).
  assert (H3 : (Rabs (g (t0 + h)%R - g t0) < Rmin 1 (eps / (2 * (Rabs du + 1))))%R).
  { apply (H2 (t0 + h)%R). split; [split; [exact I|lra]|]. cbn. unfold R_dist. replace (t0 + h - t0)%R with h by ring. exact (Rlt_le_trans _ _ _ Lh (Rmin_r _ _)). }
  rewrite U in *. set (a := ((u (t0 + h) - 0) / h)%R) in *.
  replace ((u (t0 + h) * g (t0 + h) - 0 * g t0) / h - du * g t0)%R with ((a - du) * g (t0 + h) + du * (g (t0 + h) - g t0))%R by (unfold a; field; auto).
  pose proof (Rlt_le_trans _ _ _ H3 (Rmin_l _ _)) as G1. pose proof (Rlt_le_trans _ _ _ H3 (Rmin_r _ _)) as G2.
  assert (G3 : (Rabs (g (t0 + h)) <= Rabs (g t0) + 1)%R).
  { replace (g (t0 + h)%R) with ((g (t0 + h) - g t0) + g t0)%R by ring. pose proof (Rabs_triang (g (t0 + h)%R - g t0) (g t0)). lra. }
  pose proof (Rabs_pos du) as Q1. pose proof (Rabs_pos (g t0)) as Q2.
  eapply Rle_lt_trans; [apply Rabs_triang|]. rewrite !Rabs_mult.
  apply Rlt_le_trans with (eps / 2 + eps / 2)%R; [|lra]. apply Rplus_lt_le_compat.
  - apply Rle_lt_trans with (Rabs (a - du) * (Rabs (g t0) + 1))%R; [apply Rmult_le_compat_l; [apply Rabs_pos|lra]|].
    apply Rlt_le_trans with (eps / (2 * (Rabs (g t0) + 1)) * (Rabs (g t0) + 1))%R; [apply Rmult_lt_compat_r; lra|]. right. field. lra.
  - apply Rle_trans with (Rabs du * (eps / (2 * (Rabs du + 1))))%R; [apply Rmult_le_compat_l; lra|].
    assert (I1 : (0 < / (Rabs du + 1))%R) by (apply Rinv_0_lt_compat; lra).
    replace (Rabs du * (eps / (2 * (Rabs du + 1))))%R with (eps / 2 * (Rabs du * / (Rabs du + 1)))%R by (field; lra).
    rewrite <- (Rmult_1_r (eps / 2)) at 2. apply Rmult_le_compat_l; [lra|].
    apply Rle_trans with ((Rabs du + 1) * / (Rabs du + 1))%R; [apply Rmult_le_compat_r; lra|rewrite Rinv_r by lra; lra].
Qed.

(** two derivatives at the same point are equal *)
Lemma derivative_unique f b s s' (x J D : TR) : wf x -> shape x = b :: s -> wf J -> shape J = [b; numel s'; numel s] -> wf D -> shape D = [b; numel s'; numel s] ->
  derivative_at f x s' J -> derivative_at f x s' D -> forall q i j, q < b -> i < numel s' -> j < numel s -> entry J q i j = entry D q i j.
Proof.
  intros Wx Sx WJ SJ WD SD DJ DD q i j Hq Hi Hj. set (n := numel s) in *. set (k0 := q * n + j).
  assert (Hk : k0 < numel (b :: s)) by (rewrite numel_cons; now apply flat_lt).
  set (e := fun k => if k =? k0 then 1%R else 0%R).
  set (c := fun t => listing (b :: s) (fun k => (nth k (data x) 0 + t * e k)%R)).
  assert (C0 : c 0%R = x).
  { rewrite <- (listing_eta x Wx) at 1. rewrite Sx. unfold c, listing. f_equal. apply map_ext. intros a. ring. }
  assert (Mc : moves c 0%R (listing (b :: s) e)).
  { split; [apply listing_wf|]. split; [intros t; split; [apply listing_wf|reflexivity]|].
    intros k Hk'. cbn [shape listing] in Hk'. rewrite listing_nth by exact Hk'.
    apply dl_ext with (f := fun t => (nth k (data x) 0 + t * e k)%R); [intros t; symmetry; unfold c; exact (listing_nth (b :: s) _ k Hk')|].
    eapply dl_eq; [apply dl_plus; [apply dl_const|apply dl_mult; [apply dl_id|apply dl_const]]|]. cbv beta. ring. }
  assert (Fl : forall j', j' < n -> fl n (listing (b :: s) e) q j' = delta j j').
  { intros j' Hj'. unfold fl. rewrite listing_nth by (rewrite numel_cons; now apply flat_lt). unfold e, k0, delta.
    destruct (Nat.eqb_spec j j') as [->|N]; [now rewrite Nat.eqb_refl|].
    destruct (Nat.eqb_spec (q * n + j') (q * n + j)); [lia|reflexivity]. }
  assert (V : forall A, wf A -> shape A = [b; numel s'; n] -> derivative_at f x s' A ->
    exists y, (forall t, f (c t) = Ok (y t)) /\ derivable_pt_lim (fun t => fl (numel s') (y t) q i) 0%R (entry A q i j)).
  { intros A WA SA DA. destruct (DA c 0%R (listing (b :: s) e) C0 Mc) as (y & Fy & My). exists y. split; auto.
    destruct (jac_apply_ok b (numel s') n s' A (listing (b :: s) e) WA SA eq_refl) as (_ & S1 & V1).
    pose proof (proj2 (moves_curve b s' y 0%R _ My S1) q i Hq Hi) as D1. rewrite V1 in D1 by auto. eapply dl_eq; [exact D1|].
    rewrite (bsum_ext n _ (fun j' => (delta j j' * entry A q i j')%R)) by (intros j' Hj'; rewrite Fl by auto; ring). now rewrite bsumR_delta. }
  destruct (V J WJ SJ DJ) as (y1 & F1 & D1). destruct (V D WD SD DD) as (y2 & F2 & D2).
  apply (uniqueness_limite (fun t => fl (numel s') (y1 t) q i) 0%R); auto. apply (dl_ext (fun t => fl (numel s') (y2 t) q i)); [|exact D2].
  intros t. specialize (F1 t). rewrite F2 in F1. injection F1 as ->. reflexivity.
Qed.

(** the length of sample q *)
Definition len (n : nat) (x : TR) (q : nat) : R := sqrt (bsum n (fun j => nth (q * n + j) (data x) 0 * nth (q * n + j) (data x) 0))%R.

Section L2.
  Variables (e : R) (s : list nat) (b : nat) (x : TR).
  Hypothesis (He : (0 < e)%R) (Hn : 0 < numel s) (Hb : 0 < b) (Wx : wf x) (Sx : shape x = b :: s).
  Notation n := (numel s).
  Definition l2_gap (q i j : nat) : R := (e * (nth (q * n + i) (data x) 0 * nth (q * n + j) (data x) 0) / (len n x q * (len n x q + e) ^ 3))%R.
  Definition l2_true : TR := tab3 b n n (fun q i j => l2_JX e n x q i j - l2_gap q i j)%R.

  Lemma len_pos q : (0 <= len n x q)%R. Proof. apply sqrt_pos. Qed.
  Lemma zero_len q j : len n x q = 0%R -> j < n -> nth (q * n + j) (data x) 0%R = 0%R.
  Proof.
    intros L Hj. destruct (Req_dec (nth (q * n + j) (data x) 0%R) 0) as [|Ne]; auto. exfalso.
    assert (0 < len n x q)%R; [|lra]. apply sqrt_lt_R0. apply (bsum_pos n _ j); auto; [intros; apply Rle_0_sqr|]. now apply Rsqr_pos_lt.
  Qed.

  Lemma l2_curve_derivative : derivative_at (fwd (Leaf (L2Norm e))) x s l2_true.
  Proof.
    intros c t0 d Ec Mv. assert (Sd : shape d = b :: s). { destruct Mv as (_ & C1 & _). destruct (C1 t0) as [_ <-]. now rewrite Ec. }
    destruct (moves_curve b s c t0 d Mv Sd) as [C1 C2].
    destruct (jac_apply_ok b n n s l2_true d (wf_tab _ _) eq_refl eq_refl) as (A1 & A2 & A3).
    assert (G : forall t, { y | l2_forward e (c t) = Ok y }).
    { intros t. destruct (l2_forward e (c t)) as [y|er] eqn:E; [now exists y|]. exfalso. destruct (C1 t) as [Wc Sc].
      destruct (l2_fwd e b s (c t) Hb Sc) as (y & E' & _). congruence. }
    exists (fun t => proj1_sig (G t)). split; [intros t; exact (proj2_sig (G t))|].
    assert (P : forall t, wf (proj1_sig (G t)) /\ shape (proj1_sig (G t)) = b :: s /\
       forall q i, q < b -> i < n -> fl n (proj1_sig (G t)) q i = (1 / (sqrt (bsum n (fun j => fl n (c t) q j * fl n (c t) q j)) + e) * fl n (c t) q i)%R).
    { intros t. destruct (G t) as [y E]. cbn. destruct (C1 t) as [Wc Sc]. destruct (l2_fwd e b s (c t) Hb Sc) as (y' & E' & R). rewrite E in E'. injection E' as <-. exact R. }
    apply (curve_moves b s _ t0 (fun q i => bsum n (fun j => entry l2_true q i j * fl n d q j)%R)); auto.
    split; [intros t; split; apply P|].
    intros q i Hq Hi. set (Q := fun t => bsum n (fun j => fl n (c t) q j * fl n (c t) q j)%R).
    assert (QL : sqrt (Q t0) = len n x q) by (unfold Q; rewrite Ec; reflexivity).
    assert (Q0 : forall t, (0 <= Q t)%R). { intros t. assert (G0 : forall k, (0 <= bsum k (fun j => fl n (c t) q j * fl n (c t) q j))%R); [|apply G0]. induction k as [|k IH]; cbn; [lra|]. pose proof (Rle_0_sqr (fl n (c t) q k)). unfold Rsqr in *. lra. }
    set (dS := bsum n (fun j => 2 * (fl n (c t0) q j * fl n d q j))%R).
    assert (DS : derivable_pt_lim Q t0 dS).
    { unfold dS. eapply dl_eq; [refine (dl_bsum n (fun j t => (fl n (c t) q j * fl n (c t) q j)%R) _ t0 _)|].
      - intros j Hj. refine (dl_mult _ _ _ _ _ _ _); apply C2; auto.
      - apply bsum_ext. intros j Hj. cbn beta. ring. }
    apply dl_ext with (f := fun t => (fl n (c t) q i * (1 / (sqrt (Q t) + e)))%R).
    { intros t. rewrite (proj2 (proj2 (P t))) by auto. fold (Q t). ring. }
    set (N := len n x q) in *. assert (Np : (0 <= N)%R) by apply len_pos.
    assert (Ev : forall j, j < n -> entry l2_true q i j = (1 / (N + e) * (delta i j - (1 / (N + e) * fl n x q i) * (1 / (N + e) * fl n x q j)) - l2_gap q i j)%R).
    { intros j Hj. unfold entry, l2_true. rewrite get_tab3 by auto. reflexivity. }
    destruct (Rle_lt_or_eq_dec 0 N Np) as [Pn|Zn].
    - eapply dl_eq.
      + refine (dl_mult _ (fun t => 1 / (sqrt (Q t) + e))%R t0 _ _ (C2 q i Hq Hi) _).
        refine (dl_inv (fun t => sqrt (Q t) + e)%R t0 _ _ _); [|rewrite QL; lra].
        refine (dl_plus _ _ _ _ _ _ (dl_const _ _)). refine (dl_comp Q sqrt t0 _ _ DS _). apply derivable_pt_lim_sqrt.
        destruct (Rle_lt_or_eq_dec 0 (Q t0) (Q0 t0)) as [|Z]; auto. rewrite <- Z, sqrt_0 in QL. lra.
      + cbn beta. rewrite QL.
        rewrite (bsum_ext n _ (fun j => ((1 / (N + e)) * (delta i j * fl n d q j) - (1 / (N * (N + e) ^ 2) * fl n x q i) * (fl n x q j * fl n d q j))%R)).
        2:{ intros j Hj. rewrite Ev by auto. unfold l2_gap. fold N. unfold fl. change (@n0 R Num_R) with 0%R. field. lra. }
        rewrite bsumR_sub, !bsumR_mul_l, bsumR_delta by auto. unfold dS. rewrite bsumR_mul_l, Ec. field. lra.
    - assert (X0 : fl n (c t0) q i = 0%R) by (rewrite Ec; apply zero_len; auto).
      eapply dl_eq.
      + apply (dl_zero_mul (fun t => fl n (c t) q i) (fun t => 1 / (sqrt (Q t) + e))%R t0 _ X0 (C2 q i Hq Hi)).
        apply continuity_pt_div; [apply continuity_pt_const; intros ? ?; reflexivity| |rewrite QL; lra].
        apply continuity_pt_plus; [|apply continuity_pt_const; intros ? ?; reflexivity].
        apply (continuity_pt_comp Q sqrt); [apply derivable_continuous_pt; exists dS; exact DS|apply continuity_pt_sqrt, Q0].
      + rewrite QL. rewrite <- Zn.
        rewrite (bsum_ext n _ (fun j => (1 / (0 + e)) * (delta i j * fl n d q j))%R).
        2:{ intros j Hj. rewrite Ev by auto. unfold l2_gap. rewrite (zero_len q i) by auto. unfold fl at 1. change (@n0 R Num_R) with 0%R. rewrite (zero_len q i) by auto. rewrite <- Zn. unfold Rdiv. ring. }
        rewrite bsumR_mul_l, bsumR_delta by auto. ring.
  Qed.

  Lemma l2_eps : forall h, exists J D, snd (jacobian (Leaf (L2Norm e)) h x None Input) = Ok (Some J) /\ wf J /\ shape J = [b; n; n] /\
    wf D /\ shape D = [b; n; n] /\ derivative_at (fwd (Leaf (L2Norm e))) x s D /\
    (forall q i j, q < b -> i < n -> j < n -> (entry J q i j - entry D q i j = e * (nth (q * n + i) (data x) 0 * nth (q * n + j) (data x) 0) / (len n x q * (len n x q + e) ^ 3))%R) /\
    (derivative_at (fwd (Leaf (L2Norm e))) x s J <-> forall k, k < numel (b :: s) -> nth k (data x) 0%R = 0%R).
  Proof.
    intros h. destruct (l2_fwd e b s x Hb Sx) as (y & Fy & _).
    exists (dense b n n (l2_JX e n x)), l2_true.
    split. { change (l2_jacobian e x None Input = Ok (Some (dense b n n (l2_JX e n x)))). eapply (l2_jac e b s x Hb Sx None y Fy); auto. }
    split; [apply wf_tab|]. split; [reflexivity|]. split; [apply wf_tab|]. split; [reflexivity|]. split; [exact l2_curve_derivative|].
    assert (Gp : forall q i j, q < b -> i < n -> j < n -> (entry (dense b n n (l2_JX e n x)) q i j - entry l2_true q i j = l2_gap q i j)%R).
    { intros q i j Hq Hi Hj. unfold entry, dense, l2_true. rewrite !get_tab3 by auto. ring. }
    split; [exact Gp|]. split.
    - intros D k Hk. rewrite numel_cons in Hk. destruct (divmod_lt k b n Hk) as (A & B & ->). set (q := k / n) in *. set (i := k mod n) in *.
      pose proof (derivative_unique _ b s s x (dense b n n (l2_JX e n x)) l2_true Wx Sx (wf_tab _ _) eq_refl (wf_tab _ _) eq_refl D l2_curve_derivative q i i A B B) as U.
      pose proof (Gp q i i A B B) as G. rewrite U in G. unfold l2_gap in G.
      destruct (Rle_lt_or_eq_dec 0 (len n x q) (len_pos q)) as [Pn|Zn]; [|apply zero_len; auto].
      assert (Pc : (0 < (len n x q + e) ^ 3)%R) by (apply pow_lt; lra).
      destruct (Req_dec (nth (q * n + i) (data x) 0%R) 0) as [|Ne]; auto. exfalso.
      assert (0 < e * (nth (q * n + i) (data x) 0 * nth (q * n + i) (data x) 0) / (len n x q * (len n x q + e) ^ 3))%R; [|lra].
      apply Rdiv_lt_0_compat; [|now apply Rmult_lt_0_compat]. apply Rmult_lt_0_compat; auto. now apply Rsqr_pos_lt.
    - intros Z. assert (E : dense b n n (l2_JX e n x) = l2_true).
      { unfold dense, l2_true. apply tab3_ext. intros q i j Hq Hi Hj. unfold l2_gap. rewrite (Z (q * n + i)) by (rewrite numel_cons; now apply flat_lt). unfold Rdiv. ring. }
      rewrite E. exact l2_curve_derivative.
  Qed.
End L2.
