(** The benchmark computes the average over the batch of the diagonal of J^T J. *)
From Coq Require Import List Arith Lia Bool Reals Lra.
From Verif Require Import Scalar Sums Tensor TensorLemmas Conv Abstract Simple LinearLayer ConvLayer PoolLayer Module Spec SpecQ Domain
  OpLemmas ReshapeLemmas Jac LeafSpec TreeBase TreePull Trees LogLik Utils UtilSpec UtilProofs Params NoneArg Smooth Calc Deriv LikSpec LikFlat LikCalc LikGrad StateCoh ValArg Leaves Bench.
Import ListNotations.
Local Open Scope nat_scope.
Local Open Scope list_scope.

Section Convert.
  Context {K} `{CR : CRing K}.
  Notation T := (tensor K).

  (** one layer *)
  Lemma convert_fits (l : tlayer K) s s' : plain l -> t_fits l s s' ->
    exists m, convert_layer l = Ok m /\ typed m s s' /\ all_sym m /\ nonempty m.
  Proof.
    destruct l as [W b|cfg W b|cfg|a| |sn sd|ls|f]; cbn [plain convert_layer t_fits]; intros P F; try contradiction.
    - destruct b as [t|]; [|congruence]. eexists. split; [reflexivity|]. split; [now constructor|]. split; exact I.
    - destruct P as (Nb & A1 & A2 & A3 & A4 & A5). destruct b as [t|]; [|congruence]. eexists. split; [reflexivity|]. split; [|split; exact I].
      constructor. destruct cfg as [c1 c2 c3 c4 c5 c6]. cbn in A1, A2, A3, A4, A5. subst. exact F.
    - destruct P as (A1 & A2 & A3 & A4). eexists. split; [reflexivity|]. split; [|split; exact I]. constructor.
      destruct cfg as [c1 c2 c3 c4 c5]. cbn in A1, A2, A3, A4. subst. exact F.
    - eexists. split; [reflexivity|]. split; [|split; exact I]. constructor. exact F.
    - eexists. split; [reflexivity|]. split; [|split; exact I]. now constructor.
  Qed.
  Lemma convert_alike (l l' : tlayer K) m : plain l -> t_alike l l' -> convert_layer l = Ok m -> sized m ->
    plain l' /\ exists m', convert_layer l' = Ok m' /\ arch m m' /\ sized m'.
  Proof.
    intros P A E Sz. destruct l as [W b|cfg W b|cfg|a| |sn sd|ls|f]; cbn [plain] in P; try contradiction.
    - destruct l' as [W' b'| | | | | | |]; cbn in A; try discriminate A. destruct A as (Ew & Eb & Ww & Wb).
      destruct b as [t|]; [|congruence]. destruct b' as [t'|]; [|discriminate Eb]. cbn in E. injection E as <-. split; [discriminate|].
      eexists. split; [reflexivity|]. split; [now constructor|]. cbn in Sz |- *. destruct Sz as (c1 & c2 & Sw & _ & Sb & _).
      exists c1, c2. split; [congruence|]. split; auto. split; [|now apply Wb]. injection Eb as Eb. congruence.
    - destruct l' as [|cfg' W' b'| | | | | |]; cbn in A; try discriminate A. destruct A as (<- & Ew & Eb & Ww & Wb).
      destruct P as (Nb & P). destruct b as [t|]; [|congruence]. destruct b' as [t'|]; [|discriminate Eb]. cbn in E. injection E as <-.
      split; [split; [discriminate|exact P]|].
      eexists. split; [reflexivity|]. split; [now constructor|]. cbn in Sz |- *. destruct Sz as (c1 & c2 & kh & kw & Sw & _ & Sb & _).
      exists c1, c2, kh, kw. split; [congruence|]. split; auto. split; [|now apply Wb]. injection Eb as Eb. congruence.
    - assert (E' : l' = TMaxPool2d cfg) by (destruct l'; cbn in A; congruence). subst. split; [exact P|].
      cbn in *. injection E as <-. eexists. split; [reflexivity|]. split; [constructor|exact I].
    - assert (E' : l' = TAct a) by (destruct l'; cbn in A; congruence). subst. split; [exact P|].
      exists m. split; [exact E|]. split; [apply arch_refl|exact Sz].
    - assert (E' : l' = TFlatten) by (destruct l'; cbn in A; congruence). subst. split; [exact P|].
      exists m. split; [exact E|]. split; [apply arch_refl|exact Sz].
  Qed.

  (** a list of layers *)
  Lemma convert_fits_seq (ls : list (tlayer K)) : forall s s', Forall plain ls -> t_fits_seq ls s s' ->
    exists ms, mapM convert_layer ls = Ok ms /\ typed_seq ms s s' /\ all_sym (Seq true ms) /\ (ls <> [] -> nonempty (Seq true ms)) /\
      flat_map params ms = flat_map t_params ls.
  Proof.
    induction ls as [|l ls IH]; intros s s' P F.
    - destruct F as [<- F]. exists []. split; [reflexivity|]. split; [now constructor|]. split; [exact I|]. split; [congruence|reflexivity].
    - inversion P as [|? ? Pl Ps]; subst. destruct F as (s1 & Fl & Fs). destruct (convert_fits l s s1 Pl Fl) as (m & El & Tm & Sm & Nm).
      destruct (IH s1 s' Ps Fs) as (ms & Es & Tms & Sms & Nms & Pms). destruct (convert_layer_plain l Pl) as (m0 & El0 & Pl0 & _).
      assert (m0 = m) by congruence. subst m0.
      exists (m :: ms). cbn [mapM]. rewrite El. cbn [bind]. rewrite Es. cbn [bind]. split; [reflexivity|].
      split; [econstructor; eauto|]. split; [split; auto|]. split; [|cbn; congruence]. intros _. split; [discriminate|]. split; [exact Nm|].
      destruct ls as [|l' ls']; [cbn in Es; injection Es as <-; exact I|]. apply Nms. discriminate.
  Qed.
  Lemma convert_alike_seq (ls ls' : list (tlayer K)) : Forall2 t_alike ls ls' -> forall ms, Forall plain ls -> mapM convert_layer ls = Ok ms -> sized_seq ms ->
    Forall plain ls' /\ exists ms', mapM convert_layer ls' = Ok ms' /\ archs ms ms' /\ sized_seq ms'.
  Proof.
    induction 1 as [|l l' ls ls' A As IH]; intros ms P E Sz.
    - cbn in E. injection E as <-. split; [constructor|]. exists []. split; [reflexivity|]. split; [constructor|exact I].
    - inversion P as [|? ? Pl Ps]; subst. cbn [mapM] in E. destruct (convert_layer l) as [m|] eqn:El; [|discriminate]. cbn [bind] in E.
      destruct (mapM convert_layer ls) as [ms0|] eqn:Es; [|discriminate]. cbn [bind] in E. injection E as <-. destruct Sz as [Sm Sms].
      destruct (convert_alike l l' m Pl A El Sm) as (Pl' & m' & El' & Am & Sm'). destruct (IH ms0 Ps eq_refl Sms) as (Ps' & ms' & Es' & Ams & Sms').
      split; [now constructor|]. exists (m' :: ms'). cbn [mapM]. rewrite El'. cbn [bind]. rewrite Es'. cbn [bind]. split; [reflexivity|].
      split; [now constructor|]. split; auto.
  Qed.
End Convert.

Lemma convert_smooth (l : tlayer R) m x : plain l -> convert_layer l = Ok m -> t_smooth l x -> smooth m x.
Proof.
  destruct l as [W b|cfg W b|cfg|a| |sn sd|ls|f]; cbn [plain convert_layer t_smooth]; intros P E S; try contradiction.
  - destruct b; [|congruence]. injection E as <-. exact I.
  - destruct b; [|discriminate]. injection E as <-. exact I.
  - destruct P as (A1 & A2 & A3 & A4). destruct cfg as [c1 c2 c3 c4 c5]. cbn in A1, A2, A3, A4. subst. injection E as <-. exact S.
  - injection E as <-. destruct a; try exact S. destruct P as [-> ->]. exact S.
  - injection E as <-. exact I.
Qed.
Lemma convert_smooth_seq (ls : list (tlayer R)) : forall ms x, Forall plain ls -> mapM convert_layer ls = Ok ms -> t_smooth_seq ls x -> smooth_seq smooth ms x.
Proof.
  induction ls as [|l ls IH]; intros ms x P E S; cbn [mapM] in E.
  - injection E as <-. exact I.
  - inversion P as [|? ? Pl Ps]; subst. destruct (convert_layer l) as [m|] eqn:El; [|discriminate]. cbn [bind] in E.
    destruct (mapM convert_layer ls) as [ms0|] eqn:Es; [|discriminate]. cbn [bind] in E. injection E as <-. destruct S as [Sl Ss].
    split; [now apply (convert_smooth l)|]. intros y Hy. apply IH; auto. apply Ss.
    destruct (convert_layer_plain l Pl) as (m0 & El0 & _ & F0). assert (m0 = m) by congruence. subst. now rewrite <- F0.
Qed.

Section Main.
  Variables (ls : list (tlayer R)) (s s' : list nat) (b : nat) (x : tensor R).
  Hypothesis P : Forall plain ls.
  Hypothesis F : t_fits_seq ls s s'.
  Hypothesis Hb : 0 < b.
  Hypothesis Wx : wf x.
  Hypothesis Sx : shape x = b :: s.
  Hypothesis Np : numel (shape (t_weight ls)) <> 0.

  Lemma bench_value : t_smooth_seq ls x ->
    exists m J d, bench_init ls = Ok m /\ t_derivative ls x b s' J /\ (forall h, snd (bench_ggn m h x) = Ok d) /\
      wf d /\ shape d = shape (t_weight ls) /\
      forall k, k < numel (shape (t_weight ls)) ->
        nth k (data d) 0%R = (bsum b (fun q => bsum (numel s') (fun i => J q i k * J q i k)) / INR b)%R.
  Proof.
    intros Sm. destruct (convert_fits_seq ls s s' P F) as (ms & Es & Ty & Sy & Ne & Pm).
    assert (Nl : ls <> []) by (intros ->; now apply Np).
    assert (Np0 : flat_map t_params ls <> []) by (intros E; apply Np; unfold t_weight; rewrite E; reflexivity). specialize (Ne Nl). set (m := Seq true ms) in *.
    assert (Tm : typed m s s') by now constructor. assert (Sz : sized m) by (eapply (proj1 typed_sized); exact Tm).
    assert (Szs : sized_seq ms) by (cbn [sized m] in Sz; now rewrite sized_go in Sz).
    assert (Pn : params m <> []) by (change (params m) with (flat_map params ms); now rewrite Pm).
    assert (Wt : t_weight ls = mkT [n_params m] (pdata m)).
    { unfold t_weight, pdata. change (params m) with (flat_map params ms). rewrite <- Pm. f_equal. f_equal. exact (pdata_len m Sz). }
    assert (Nw : numel (shape (t_weight ls)) = n_params m) by (rewrite Wt; cbn [shape]; rewrite numel_cons, numel_nil; lia).
    assert (Gw : get_weight m = Ok (t_weight ls)) by (rewrite Wt; now apply get_weight_ok).
    assert (Np' : n_params m <> 0).
    { congruence. }
    destruct (weight_derivative m s s' b x Tm Hb Wx Sx st0 (t_weight ls)) as (J & EJ & WJ & SJ & DJ); auto.
    { exact (convert_smooth_seq ls ms x P Es Sm). }
    destruct (jTmjp_weight_diag m s s' b x Tm Hb Wx Sx st0 st0 true (identity_metric true b (numel s')) Sy Ne Np') as (J' & EJ' & _ & _ & ED).
    { apply wf_tab. } { reflexivity. }
    assert (J' = J) by congruence. subst J'. clear EJ'.
    set (pl := pull_at (numel s') (entry J) (metric true (identity_metric true b (numel s')))) in *.
    destruct (sum0_tab2 b (n_params m) (fun q j => pl q j j)) as (W0 & S0 & E0).
    exists m, (entry J). eexists. split; [unfold bench_init, convert_to_nnj; now rewrite Es|]. split; [|split; [|split; [|split]]].
    - intros lc t0 dw Ec Al Mv. destruct (DJ (fun t => t_weight (lc t)) t0 dw) as (y & v & Fy & My & Sv & Hv); auto.
      { now rewrite Ec. }
      exists y, v. split; [|split; [exact My|split; [exact Sv|]]].
      + intros t. destruct (Fy t) as (m' & Em & Fm). destruct (convert_alike_seq ls (lc t) (Al t) ms P Es Szs) as (P' & ms' & Es' & Am & Szs').
        destruct (convert_plain (lc t) P') as (mt & Emt & Pmt & Fmt). unfold convert_to_nnj in Emt. rewrite Es' in Emt. cbn in Emt. injection Emt as <-.
        set (mt := Seq true ms') in *. assert (Szt : sized mt) by (cbn [sized mt]; now rewrite sized_go).
        assert (At : arch m mt) by now constructor.
        assert (Wc : t_weight (lc t) = mkT [n_params m] (pdata mt)).
        { unfold t_weight, pdata. rewrite Pmt. f_equal. f_equal. rewrite <- Pmt. rewrite (proj1 arch_len m mt At). exact (pdata_len mt Szt). }
        destruct (set_get m (t_weight (lc t)) Sz Pn) as (m2 & E2 & A2 & Sz2 & G2).
        { now rewrite Wc. } { rewrite Wc. unfold wf. cbn [shape data]. rewrite (pdata_len mt Szt), (proj1 arch_len m mt At), numel_cons, numel_nil. lia. }
        assert (m2 = m') by congruence. subst m2.
        assert (m' = mt). { apply (arch_join m m' mt); auto. rewrite get_weight_ok in G2; [|auto|]. - rewrite Wc in G2. now injection G2. - intros E. apply Pn. exact (proj1 arch_params _ _ (proj1 arch_sym _ _ A2) E). }
        subst m'. rewrite <- (Fmt st0). rewrite forward_pure. exact Fm.
      + intros q i Hq Hi. rewrite Nw. now apply Hv.
    - intros h. unfold bench_ggn. pose proof (pull_identity m s s' b x Tm Hb Wx Sx h st0 Weight false true true eq_refl Sy Ne ltac:(discriminate)) as E.
      rewrite ED in E. destruct (jTmjp m h x None VNone Weight false true false) as [h1 r]. cbn [snd] in *. subst r. reflexivity.
    - now apply wf_emap.
    - rewrite Wt. exact S0.
    - intros k Hk. rewrite Nw in Hk. unfold mean0.
      etransitivity; [exact (nth_emap (K := R) _ _ k ltac:(rewrite W0, S0, numel_cons, numel_nil; lia))|].
      etransitivity; [apply (f_equal (fun a => ndiv a _)), E0; auto|]. change (dim (present true b (n_params m) pl) 0) with b.
      cbn [ndiv Num_R]. rewrite nnat_R. f_equal. apply bsum_ext. intros q Hq. unfold pl, pull_at. apply bsum_ext. intros i Hi.
      rewrite (bsum_single (numel s') i); [|exact Hi|intros z Hz Nz; unfold metric; destruct (Nat.eqb_spec i z); [congruence|]; cbn [nmul n0 Num_R]; ring].
      unfold metric, identity_metric. rewrite Nat.eqb_refl, get_tab2 by auto. cbn [nmul n1 Num_R]. ring.
  Qed.
End Main.

(** Linear and Tanh layers: differentiable everywhere *)
Lemma linear_plain (Ps : list (tensor R * tensor R)) : Forall plain (linear_model Ps).
Proof. unfold linear_model. induction Ps as [|p Ps IH]; cbn; [constructor|]. constructor; [discriminate|]. constructor; [exact I|auto]. Qed.
Lemma linear_smooth (Ps : list (tensor R * tensor R)) : forall x, t_smooth_seq (linear_model Ps) x.
Proof.
  unfold linear_model. induction Ps as [|p Ps IH]; intros x; cbn; [exact I|]. split; [exact I|]. intros y _. split; [intros k _; exact I|]. intros z _. apply IH.
Qed.
Lemma linear_fits n k (W c : tensor R) : 0 < n -> shape W = [n; n] -> wf W -> shape c = [n] -> wf c ->
  t_fits_seq (linear_model (repeat (W, c) k)) [n] [n].
Proof.
  intros Hn SW WW Sc Wc. assert (Hn1 : 0 < numel [n]) by (rewrite numel_cons, numel_nil; lia).
  induction k as [|k IH]; [now split|]. cbn. exists [n]. split; [repeat split; auto|]. exists [n]. split; [repeat split; auto|exact IH].
Qed.
Lemma linear_weight n k (W c : tensor R) : 0 < n -> 0 < k -> shape W = [n; n] -> wf W -> numel (shape (t_weight (linear_model (repeat (W, c) k)))) <> 0.
Proof.
  intros Hn Hk SW WW. destruct k as [|k]; [lia|]. unfold t_weight. cbn [shape]. rewrite numel_cons, numel_nil. cbn. rewrite app_length.
  unfold wf in WW. rewrite WW, SW, !numel_cons, numel_nil. nia.
Qed.

(** the gradient of README.md *)
Lemma readme_value (m : module R) (s : list nat) (n b : nat) (x tg w0 : tensor R) h :
  typed m s [n] -> 0 < b -> wf x -> shape x = b :: s -> smooth m x -> get_weight m = Ok w0 -> wf tg -> shape tg = [b; n] ->
  exists g, snd (readme_gradient m h x tg) = Ok g /\ wf g /\ shape g = [n_params m] /\
    forall w t0 dw, w t0 = w0 -> moves w t0 dw ->
    exists F Y, (forall t, exists m', set_weight m (w t) = (m', Ok tt) /\ fwd m' x = Ok (Y t)) /\
      (forall t, F t = bsum b (fun q => bsum n (fun i => (sample n (Y t) q i - sample n tg q i)^2)) / (2 * INR b))%R /\
      derivable_pt_lim F t0 (bsum (n_params m) (fun p => nth p (data g) 0 * nth p (data dw) 0))%R.
Proof.
  intros Ty Hb Wx Sx Sm Gw Wt St. assert (En : numel [n] = n) by (rewrite numel_cons, numel_nil; lia).
  destruct (weight_derivative m s [n] b x Ty Hb Wx Sx st0 w0 Sm Gw) as (J & EJ & WJ & SJ & D). rewrite En in *.
  destruct (fwd_total m s [n] b x Ty Hb Wx Sx) as (y & Fy & Wy & Sy).
  destruct (bop_flat (K := R) nsub y tg Wy Wt ltac:(congruence)) as (r & Er & Wr & Sr & Hr).
  assert (C : coh m (fst (forward m h x)) x) by (eapply (typed_coh BF BPF); eauto).
  pose proof (vjp_val m s [n] Weight Ty ltac:(discriminate) r b x y st0 _ Hb Wx Sx Fy C) as V. cbn beta in V.
  assert (Sr' : shape r = [b; numel [n]]) by (rewrite En, Sr; exact Sy).
  destruct (vjp_weight m s [n] b x Ty Hb Wx Sx st0 st0 r Wr Sr') as [V1 _]. destruct (V1 (np_pos m s [n] b Ty Hb w0 Gw)) as (J' & EJ' & _ & _ & EV).
  rewrite EJ in EJ'. injection EJ' as <-. rewrite EV in V. rewrite En in V. unfold vJ in V.
  destruct (sum0_tab2 b (n_params m) (fun q p => bsum n (fun i => nmul (get n0 r [q; i]) (entry J q i p)))) as (W0 & S0 & E0).
  eexists. split; [|split; [|split]].
  - unfold readme_gradient. rewrite (fwd_state m x y h Fy) in *. cbn [bind fst] in *. change (tsub y tg) with (bop nsub y tg). rewrite Er. cbn [bind].
    destruct (vjp m _ x (Some y) r Weight) as [h1 r1]. cbn [snd] in *. subst r1. reflexivity.
  - now apply wf_emap.
  - exact S0.
  - intros w t0 dw Ew Mw. destruct (D w t0 dw Ew Mw) as (Y & v & FY & MY & Sv & Hv).
    assert (Y0 : Y t0 = y).
    { destruct (FY t0) as (m' & Es & Ef). rewrite Ew in Es. rewrite (get_set m w0 (proj1 typed_sized m s [n] Ty) Gw) in Es. injection Es as <-. congruence. }
    eexists. exists Y. split; [exact FY|]. split; [intros t; reflexivity|].
    assert (B0 : INR b <> 0%R) by (apply not_0_INR; lia).
    eapply dl_eq.
    + apply (dl_ext (fun t => / (2 * INR b) * bsum b (fun q => bsum n (fun i => (sample n (Y t) q i - sample n tg q i)^2)))%R); [intros t; unfold Rdiv; apply Rmult_comm|].
      apply dl_scal. apply (dl_bsum b (fun q t => bsum n (fun i => (sample n (Y t) q i - sample n tg q i)^2))%R (fun q => bsum n (fun i => 2 * (sample n y q i - sample n tg q i) * sample n v q i))%R).
      intros q Hq. apply (dl_bsum n (fun i t => (sample n (Y t) q i - sample n tg q i)^2)%R (fun i => 2 * (sample n y q i - sample n tg q i) * sample n v q i)%R).
      intros i Hi. assert (Dy : derivable_pt_lim (fun t => sample n (Y t) q i - sample n tg q i)%R t0 (sample n v q i - 0)%R).
      { apply dl_minus; [|apply dl_const]. destruct MY as (_ & _ & Dv). apply Dv. rewrite Sv, !numel_cons, numel_nil. nia. }
      apply (dl_ext (fun t => (sample n (Y t) q i - sample n tg q i) * (sample n (Y t) q i - sample n tg q i))%R); [intros t; ring|].
      eapply dl_eq; [exact (dl_mult _ _ t0 _ _ Dy Dy)|]. cbn beta. rewrite <- Y0. ring.
    + assert (Hg : forall q i, q < b -> i < n -> get 0%R r [q; i] = (sample n y q i - sample n tg q i)%R).
      { intros q i Hq Hi. unfold get. rewrite Sr', En. cbn [ravel]. rewrite numel_cons, numel_nil. replace (q * (n * 1) + (i * 1 + 0)) with (q * n + i) by lia.
        apply Hr. rewrite Sy, !numel_cons, numel_nil. nia. }
      rewrite (bsum_ext (n_params m) _ (fun p => / INR b * (bsum b (fun q => bsum n (fun i => get 0 r [q; i] * entry J q i p)) * nth p (data dw) 0)))%R.
      2:{ intros p Hp. unfold mean0.
          transitivity (bsum b (fun q => bsum n (fun i => get 0 r [q; i] * entry J q i p)) / INR b * nth p (data dw) 0)%R; [|unfold Rdiv; ring]. f_equal.
          etransitivity; [exact (nth_emap (K := R) _ _ p ltac:(rewrite W0, S0, numel_cons, numel_nil; lia))|]. etransitivity; [apply (f_equal (fun a => ndiv a _)), E0; auto|]. cbn. now rewrite nnat_R. }
      rewrite bsumR_mul_l. rewrite Rinv_mult by lra. rewrite (Rmult_comm (/ 2)), Rmult_assoc. f_equal.
      rewrite (bsum_ext (n_params m) _ (fun p => bsum b (fun q => bsum n (fun i => get 0 r [q; i] * entry J q i p) * nth p (data dw) 0)))%R by (intros; now rewrite bsumR_mul_r).
      rewrite (bsum_swap (n_params m) b (fun p q => bsum n (fun i => get 0 r [q; i] * entry J q i p) * nth p (data dw) 0)%R).
      rewrite <- bsumR_mul_l. apply bsum_ext. intros q Hq.
      rewrite (bsum_ext (n_params m) _ (fun p => bsum n (fun i => get 0 r [q; i] * entry J q i p * nth p (data dw) 0)%R)) by (intros; now rewrite bsumR_mul_r).
      rewrite (bsum_swap (n_params m) n (fun p i => get 0 r [q; i] * entry J q i p * nth p (data dw) 0)%R). rewrite <- bsumR_mul_l. apply bsum_ext. intros i Hi.
      rewrite (bsum_ext (n_params m) _ (fun p => get 0 r [q; i] * (entry J q i p * nth p (data dw) 0))%R) by (intros; ring). rewrite bsumR_mul_l.
      unfold sample at 3. rewrite Hv by auto. rewrite Hg by auto. field.
Qed.
Lemma readme_network a1 a2 a3 (W c W' c' x : tensor R) : 0 < a1 -> 0 < a2 -> 0 < a3 ->
  shape W = [a2; a1] -> wf W -> shape c = [a2] -> wf c -> shape W' = [a3; a2] -> wf W' -> shape c' = [a3] -> wf c' ->
  let m := Seq true [Leaf (Linear W (Some c)); Leaf (Act Tanh); Leaf (Linear W' (Some c'))] in
  typed m [a1] [a3] /\ smooth m x /\ exists w0, get_weight m = Ok w0.
Proof.
  intros H1 H2 H3 SW WW Sc Wc SW' WW' Sc' Wc' m.
  assert (P : forall a, 0 < a -> 0 < numel [a]) by (intros; rewrite numel_cons, numel_nil; lia). split; [|split].
  - apply ty_seq. apply tys_cons with [a2]; [|apply tys_cons with [a2]; [|apply tys_cons with [a3]; [|apply tys_nil; auto]]]; apply ty_leaf; cbn; repeat split; auto.
  - cbn. split; [exact I|]. intros y _. split; [intros k _; exact I|]. intros z _. split; [exact I|]. auto.
  - eexists. reflexivity.
Qed.
