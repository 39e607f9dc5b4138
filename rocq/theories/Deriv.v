(** The Jacobian of a module tree is the derivative of its forward function along curves of inputs and
    parameters. *)
From Coq Require Import List Arith Lia Bool Reals Lra.
From Verif Require Import Scalar Sums Tensor TensorLemmas Conv Abstract Simple LinearLayer ConvLayer PoolLayer Module Spec Domain Jac
  OpLemmas ReshapeLemmas LeafSpec LeafUpsample LeafPool TreeBase Leaves Trees Params Smooth Calc DerivLeaf.
Import ListNotations.
Local Open Scope nat_scope.
Local Open Scope list_scope.
Local Opaque derivable_pt_lim.

Definition setm (m : module R) (v : list R) : module R := fst (set_params m v).
Definition setms (ms : list (module R)) (v : list R) : list (module R) := fst (seq_set set_params ms v).

Lemma setms_cons m ms v : sized m -> n_params m <= length v -> setms (m :: ms) v = setm m v :: setms ms (skipn (n_params m) v).
Proof.
  intros S L. destruct (set_params_ok m v S L) as (m' & E & _). unfold setms, setm. cbn [seq_set]. rewrite E.
  destruct seq_set. reflexivity.
Qed.
Lemma setm_seq h ms v : setm (Seq h ms) v = Seq h (setms ms v).
Proof. unfold setm, setms. cbn [set_params]. now destruct seq_set. Qed.
Lemma setm_skip F v : setm (Skip F) v = Skip (setm F v).
Proof. unfold setm. cbn [set_params]. now destruct set_params. Qed.
Lemma setm_np m v : sized m -> n_params m <= length v -> n_params (setm m v) = n_params m.
Proof.
  intros S L. destruct (set_params_ok m v S L) as (m' & E & A & _). unfold setm. rewrite E. cbn [fst].
  symmetry. now apply (proj1 arch_len).
Qed.

(** concatenation along dimension 1 juxtaposes the samples *)
Lemma cat_fl (x y : TR) b c c' r : shape x = b :: c :: r -> shape y = b :: c' :: r ->
  exists z, cat 0%R 1 [x; y] = Ok z /\ wf z /\ shape z = b :: (c + c') :: r /\
  forall q i, q < b -> i < numel ((c + c') :: r) ->
    fl (numel ((c + c') :: r)) z q i = if i <? numel (c :: r) then fl (numel (c :: r)) x q i else fl (numel (c' :: r)) y q (i - numel (c :: r)).
Proof.
  intros S S'. unfold cat, rank, dim. cbn [forallb map]. rewrite S, S'.
  cbn [length nth set_nth shape_eqb]. replace (1 <? Datatypes.S (Datatypes.S (length r))) with true by reflexivity. cbn -[set_nth cat_pick Nat.ltb numel fl]. unfold shape_eqb.
  destruct list_eq_dec as [_|N]; [|exfalso; apply N; reflexivity]. cbn -[set_nth cat_pick Nat.ltb numel fl].
  eexists. split; [reflexivity|]. split; [apply wf_tab|]. split; [cbn; now rewrite Nat.add_0_r|].
  intros q i Hq Hi. cbn [set_nth]. rewrite !Nat.add_0_r. unfold fl at 1.
  pose proof (flat_lt b (numel ((c + c') :: r)) q i Hq Hi) as L.
  rewrite flat_tab by (rewrite numel_cons; exact L).
  cbn [unravel nth]. destruct (divmod_flat (numel ((c + c') :: r)) q i Hi) as [-> ->].
  rewrite numel_cons in Hi. rewrite !numel_cons. set (n := numel r) in *.
  assert (Pn : 0 < n) by (destruct n; [rewrite Nat.mul_0_r in Hi; lia|lia]).
  assert (Hk : i / n < c + c') by (apply Nat.div_lt_upper_bound; lia).
  pose proof (Nat.div_mod i n ltac:(lia)) as Dm. pose proof (Nat.mod_upper_bound i n ltac:(lia)) as Mb.
  cbn [cat_pick set_nth]. unfold dim. rewrite S, S'. cbn [nth].
  destruct (Nat.ltb_spec (i / n) c) as [H|H].
  - destruct (Nat.ltb_spec i (c * n)) as [_|H']; [|exfalso; nia].
    unfold get, fl. rewrite S. cbn [ravel]. rewrite ravel_unravel by exact Mb. rewrite numel_cons. fold n. f_equal. nia.
  - destruct (Nat.ltb_spec i (c * n)) as [H'|H']; [exfalso; nia|].
    destruct (Nat.ltb_spec (i / n - c) c') as [_|H2]; [|exfalso; lia].
    unfold get, fl. rewrite S'. cbn [ravel]. rewrite ravel_unravel by exact Mb. rewrite numel_cons. fold n. f_equal. nia.
Qed.

Definition tree_D m s s' : Prop :=
  forall b c t0 dx w dw, 0 < b -> curve b s c t0 dx -> pcurve (n_params m) w t0 dw -> smooth (setm m (w t0)) (c t0) ->
  exists y, (forall t, fwd (setm m (w t)) (c t) = Ok (y t)) /\
    curve b s' y t0 (fun q i => (bsum (numel s) (fun j => JX (setm m (w t0)) (c t0) q i j * dx q j) +
                                 bsum (n_params m) (fun p => JW (setm m (w t0)) (c t0) q i p * dw p))%R).
Definition trees_D ms s s' : Prop :=
  forall b c t0 dx w dw, 0 < b -> curve b s c t0 dx -> pcurve (seq_np ms) w t0 dw -> smooth_seq smooth (setms ms (w t0)) (c t0) ->
  exists y, (forall t, fwd_seq (setms ms (w t)) (c t) = Ok (y t)) /\
    curve b s' y t0 (fun q i => (bsum (numel s) (fun j => seq_JX JX (setms ms (w t0)) (c t0) q i j * dx q j) +
                                 bsum (seq_np ms) (fun p => seq_JW JW (setms ms (w t0)) (c t0) q i p * dw p))%R).

Lemma setm_leaf (l : leaf R) v : setm (Leaf l) v = Leaf (setl l v).
Proof. unfold setm, setl. cbn [set_params]. now destruct leaf_set. Qed.

Lemma typed_D : (forall m s s', typed m s s' -> tree_D m s s') /\ (forall ms s s', typed_seq ms s s' -> trees_D ms s s').
Proof.
  apply typed_both.
  - intros l s s' Ty b c t0 dx w dw Hb C Q Sm. rewrite setm_leaf in *. cbn [smooth n_params] in *.
    destruct (leaves_D l s s' Ty b c t0 dx w dw Hb C Q Sm) as (y & F & Cy). exists y. split; [|exact Cy].
    intros t. rewrite setm_leaf. apply F.
  - intros cfg s s' Ty b c t0 dx w dw Hb C Q Sm. unfold setm in *. cbn [set_params fst smooth n_params JX JW bsum] in *.
    destruct (pool_D cfg s s' b c t0 dx Ty Hb C Sm) as (y & F & Cy). exists y. split; [exact F|].
    eapply curve_ext; [|exact Cy]. intros q i Hq Hi. cbn [n0 Num_R]. now rewrite Rplus_0_r.
  - intros ms s s' Ty IH b c t0 dx w dw Hb C Q Sm. rewrite setm_seq in *.
    destruct (IH b c t0 dx w dw Hb C Q Sm) as (y & F & Cy). exists y. split; [|exact Cy].
    intros t. rewrite setm_seq, fwd_Seq. apply F.
  - intros ms ch ch' r Ty IH b c t0 dx w dw Hb C Q Sm. rewrite setm_skip, setm_seq in *.
    destruct (IH b c t0 dx w dw Hb C Q Sm) as (y & F & Cy). destruct C as [C1 C2]. destruct Cy as [Y1 Y2].
    assert (G : forall t, { z | cat 0%R 1 [c t; y t] = Ok z }).
    { intros t. destruct (cat 0%R 1 [c t; y t]) as [z|e] eqn:E; [now exists z|]. exfalso.
      destruct (cat_fl (c t) (y t) b ch ch' r) as (z & E' & _); [apply C1|apply Y1|]. congruence. }
    exists (fun t => proj1_sig (G t)). split.
    { intros t. rewrite setm_skip, setm_seq, fwd_Skip, fwd_Seq, F. cbn [bind]. exact (proj2_sig (G t)). }
    assert (P : forall t, wf (proj1_sig (G t)) /\ shape (proj1_sig (G t)) = b :: (ch + ch') :: r /\
      forall q i, q < b -> i < numel ((ch + ch') :: r) ->
      fl (numel ((ch + ch') :: r)) (proj1_sig (G t)) q i = if i <? numel (ch :: r) then fl (numel (ch :: r)) (c t) q i else fl (numel (ch' :: r)) (y t) q (i - numel (ch :: r))).
    { intros t. destruct (G t) as [z E]. cbn [proj1_sig].
      destruct (cat_fl (c t) (y t) b ch ch' r) as (z' & E' & R); [apply C1|apply Y1|]. rewrite E in E'. injection E' as <-. exact R. }
    split; [intros t; split; apply P|].
    intros q i Hq Hi.
    apply dl_ext with (f := fun t => if i <? numel (ch :: r) then fl (numel (ch :: r)) (c t) q i else fl (numel (ch' :: r)) (y t) q (i - numel (ch :: r))).
    { intros t. symmetry. now apply P. }
    cbn [JX JW]. rewrite (per_shape (c t0) b (ch :: r)) by apply C1.
    destruct (Nat.ltb_spec i (numel (ch :: r))) as [H|H].
    + eapply dl_eq; [apply C2; auto|]. rewrite bsumR_delta by auto.
      rewrite (bsum_ext (n_params (Skip (Seq true ms))) _ (fun _ => 0%R)); [|intros; apply Rmult_0_l].
      pose proof (@bsum_0 R _ _ (n_params (Skip (Seq true ms))) (fun _ => 0%R) (fun _ _ => eq_refl)) as Z. cbn [n0 Num_R] in Z. rewrite Z. ring.
    + apply Y2; auto. rewrite !numel_cons in Hi, H. rewrite !numel_cons. nia.
  - intros s Ps b c t0 dx w dw Hb C Q Sm. exists c. split; [reflexivity|]. eapply curve_ext; [|exact C].
    intros q i Hq Hi. cbn [setms seq_set fst seq_JX]. rewrite bsumR_delta by auto. cbn. ring.
  - intros m ms s s1 s2 Ty IHm Tys IHs b c t0 dx w dw Hb C Q Sm.
    pose proof (proj1 typed_sized m s s1 Ty) as Sz. cbn [seq_np fold_right] in Q. fold (seq_np ms) in Q.
    assert (Ln : forall t, n_params m <= length (w t)) by (intros t; destruct Q as [Q _]; specialize (Q t); lia).
    rewrite setms_cons in * by auto. cbn [smooth_seq] in Sm. destruct Sm as [Sm1 Sm2].
    destruct (IHm b c t0 dx w dw Hb C (pcurve_le _ _ _ _ _ (Nat.le_add_r _ _) Q) Sm1) as (y & F & Cy).
    destruct (IHs b y t0 _ (fun t => skipn (n_params m) (w t)) (fun p => dw (n_params m + p)) Hb Cy (pcurve_skip _ _ _ _ _ Q) (Sm2 _ (F t0))) as (z & F2 & Cz).
    exists z. split.
    { intros t. rewrite setms_cons by auto. cbn [fwd_seq]. rewrite F. cbn [bind]. apply F2. }
    eapply curve_ext; [|exact Cz]. intros q i Hq Hi. cbn beta. cbn [seq_JX seq_JW]. rewrite F.
    rewrite (per_shape (y t0) b s1) by apply Cy. cbn [seq_np fold_right]. fold (seq_np ms).
    rewrite bsum_app. rewrite setm_np by auto.
    set (Js := seq_JX JX (setms ms (skipn (n_params m) (w t0))) (y t0)).
    set (Jm := JX (setm m (w t0)) (c t0)). set (Wm := JW (setm m (w t0)) (c t0)).
    rewrite (bsum_ext (n_params m) _ (fun p => bsum (numel s1) (fun k => Js q i k * (Wm q k p * dw p))%R)).
    2:{ intros p Hp. rewrite (proj2 (Nat.ltb_lt _ _) Hp). rewrite <- bsumR_mul_r. apply bsum_ext. intros k _. cbn. ring. }
    symmetry. rewrite (bsum_ext (seq_np ms) _ (fun p => (seq_JW JW (setms ms (skipn (n_params m) (w t0))) (y t0) q i p * dw (n_params m + p)%nat)%R)).
    2:{ intros p Hp. replace (n_params m + p <? n_params m) with false by (symmetry; apply Nat.ltb_ge; lia). do 2 f_equal. lia. }
    rewrite (bsum_ext (numel s) _ (fun j => bsum (numel s1) (fun k => Js q i k * (Jm q k j * dx q j))%R)).
    2:{ intros j Hj. rewrite <- bsumR_mul_r. apply bsum_ext. intros k _. cbn. ring. }
    rewrite (bsum_swap (numel s)), (bsum_swap (n_params m)). cbn [nadd Num_R]. rewrite <- Rplus_assoc. f_equal.
    rewrite <- bsumR_add. apply bsum_ext. intros k Hk. rewrite !bsumR_mul_l. ring.
Qed.

(** with the parameters of the network itself *)
Lemma setm_self m : sized m -> setm m (pdata m) = m.
Proof. intros S. unfold setm. pose proof (set_params_same m [] S) as E. rewrite app_nil_r in E. now rewrite E. Qed.

(** *** the statements of the properties *)
Lemma moves_curve b s c t0 d : moves c t0 d -> shape d = b :: s -> curve b s c t0 (fl (numel s) d).
Proof.
  intros (Wd & C1 & C2) Sd. split.
  - intros t. rewrite <- Sd. apply C1.
  - intros q i Hq Hi. apply C2. rewrite Sd, numel_cons. now apply flat_lt.
Qed.
Lemma curve_moves b s c t0 d t : curve b s c t0 d -> wf t -> shape t = b :: s ->
  (forall q i, q < b -> i < numel s -> fl (numel s) t q i = d q i) -> moves c t0 t.
Proof.
  intros [C1 C2] Wt St E. split; [exact Wt|]. split; [intros; rewrite St; apply C1|].
  intros k Hk. rewrite St, numel_cons in Hk. destruct (divmod_lt k b (numel s) Hk) as (A & B & ->).
  eapply dl_eq; [apply C2; auto|]. symmetry. now apply E.
Qed.
Lemma jac_apply_ok b m n s J d : wf J -> shape J = [b; m; n] -> m = numel s ->
  wf (jac_apply s J d) /\ shape (jac_apply s J d) = b :: s /\
  forall q i, q < b -> i < m -> fl m (jac_apply s J d) q i = bsum n (fun j => entry J q i j * fl n d q j)%R.
Proof.
  intros WJ SJ ->. unfold jac_apply. rewrite SJ. cbn [nth]. split.
  { unfold wf. cbn [data shape]. unfold Jv. transitivity (numel [b; numel s]); [apply wf_tab|]. rewrite !numel_cons, numel_nil. ring. }
  split; [reflexivity|]. intros q i Hq Hi.
  change (fl (numel s) (@tab2 R b (numel s) (fun q i => bsum n (fun j => nmul (entry J q i j) (get n0 (mkT [b; n] (data d)) [q; j])))) q i =
    bsum n (fun j => entry J q i j * fl n d q j)%R).
  rewrite fl_tab2 by auto. apply bsum_ext. intros j Hj. now rewrite get_mkT2.
Qed.
Lemma pcurve_const n v t0 : n <= length v -> pcurve n (fun _ => v) t0 (fun _ => 0%R).
Proof. intros L. split; auto. intros p Hp. apply dl_const. Qed.
Lemma curve_const b s x t0 : wf x -> shape x = b :: s -> curve b s (fun _ => x) t0 (fun _ _ => 0%R).
Proof. intros W S. split; auto. intros q i Hq Hi. apply dl_const. Qed.

Lemma zero_sum n (f : nat -> R) : bsum n (fun j => f j * 0)%R = 0%R.
Proof. exact (@bsum_0 R _ _ n (fun j => f j * 0)%R (fun j _ => Rmult_0_r (f j))). Qed.

Section Props.
  Variables (m : module R) (s s' : list nat) (b : nat) (x : TR).
  Hypothesis (Ty : typed m s s') (Hb : 0 < b) (Wx : wf x) (Sx : shape x = b :: s).
  Let Sz : sized m := proj1 typed_sized m s s' Ty.
  Lemma input_derivative h : smooth m x ->
    exists J, snd (jacobian m h x None Input) = Ok (Some J) /\ wf J /\ shape J = [b; numel s'; numel s] /\
      derivative_at (fwd m) x s' J.
  Proof.
    intros Sm. exists (dense b (numel s') (numel s) (JX m x)).
    split; [now apply (jac_input m s s' b x)|]. split; [apply wf_tab|]. split; [reflexivity|].
    intros c t0 d Ec Mv. assert (Sd : shape d = b :: s). { destruct Mv as (_ & C1 & _). destruct (C1 t0) as [_ <-]. now rewrite Ec. }
    pose proof (moves_curve b s c t0 d Mv Sd) as Cu.
    destruct (proj1 typed_D m s s' Ty b c t0 _ (fun _ => pdata m) (fun _ => 0%R) Hb Cu) as (y & F & Cy).
    - apply pcurve_const. rewrite pdata_len; auto.
    - cbv beta. rewrite setm_self by auto. now rewrite Ec.
    - cbv beta in F, Cy. rewrite setm_self in * by auto. exists y. split; [exact F|].
      destruct (jac_apply_ok b (numel s') (numel s) s' (dense b (numel s') (numel s) (JX m x)) d (wf_tab _ _) eq_refl eq_refl) as (A1 & A2 & A3).
      eapply curve_moves; eauto. intros q i Hq Hi. cbv beta. rewrite A3, zero_sum, Rplus_0_r by auto. rewrite Ec. apply bsum_ext. intros j Hj. now rewrite entry_dense.
  Qed.
  Lemma np_pos w0 : get_weight m = Ok w0 -> n_params m <> 0.
  Proof.
    assert (G : (forall (m : module R) s s', typed m s s' -> n_params m = 0 -> params m = []) /\
      (forall (ms : list (module R)) s s', typed_seq ms s s' -> seq_np ms = 0 -> flat_map params ms = [])).
    { apply typed_both; auto.
      - intros l u u' (P1 & P2 & Tl) E. destruct l as [W bias|cfg W bias| | | | | |]; auto; exfalso.
        + cbn in Tl, E. destruct u as [|c1 [|]], u' as [|c2 [|]]; try contradiction. destruct Tl as (SW & WW & _).
          unfold lin_n_params in E. rewrite SW in E. numels. nia.
        + cbn in Tl, E. unfold conv_ok in Tl. destruct u as [|c1 [|h1 [|w1 [|]]]], u' as [|c2 [|h2 [|w2 [|]]]]; try contradiction.
          destruct (shape W) as [|a1 [|a2 [|a3 [|a4 [|]]]]] eqn:SW; try contradiction.
          unfold conv_n_params, dim in E. rewrite SW in E. destruct Tl as (-> & -> & _ & _ & _ & _ & _ & _ & Q1 & Q2 & _ & _ & Q3 & Q4 & _). numels.
          assert (0 < c2 * (c1 * (a3 * (a4 * 1)))) by (repeat apply Nat.mul_pos_pos; lia). lia.
      - intros m0 ms u u1 u2 T1 I1 T2 I2 E. cbn in *. unfold seq_np in *. rewrite I1, I2 by lia. reflexivity. }
    intros E E0. rewrite (get_weight_none m) in E by (eapply (proj1 G); eauto). discriminate.
  Qed.
  (** inputs and parameters moving together *)
  Lemma joint_derivative h h' w0 : smooth m x -> get_weight m = Ok w0 ->
    exists Jx Jw, snd (jacobian m h x None Input) = Ok (Some Jx) /\ snd (jacobian m h' x None Weight) = Ok (Some Jw) /\
      wf Jw /\ shape Jw = [b; numel s'; n_params m] /\
      forall c w t0 dx dw, c t0 = x -> moves c t0 dx -> w t0 = w0 -> moves w t0 dw ->
      exists y v, (forall t, exists m', set_weight m (w t) = (m', Ok tt) /\ fwd m' (c t) = Ok (y t)) /\
        moves y t0 v /\ shape v = b :: s' /\
        forall q i, q < b -> i < numel s' -> nth (q * numel s' + i) (data v) 0%R =
          (bsum (numel s) (fun j => entry Jx q i j * nth (q * numel s + j) (data dx) 0) +
           bsum (n_params m) (fun p => entry Jw q i p * nth p (data dw) 0))%R.
  Proof.
    intros Sm Gw. pose proof (np_pos w0 Gw) as Np.
    exists (dense b (numel s') (numel s) (JX m x)), (dense b (numel s') (n_params m) (JW m x)).
    split; [now apply (jac_input m s s' b x)|]. split; [now apply (jac_weight m s s' b x)|].
    split; [apply wf_tab|]. split; [reflexivity|].
    intros c w t0 dx dw Ec Mx Ew Mw.
    assert (Sd : shape dx = b :: s). { destruct Mx as (_ & C1 & _). destruct (C1 t0) as [_ <-]. now rewrite Ec. }
    pose proof (moves_curve b s c t0 dx Mx Sd) as Cu.
    pose proof (count_weight m w0 Sz Gw) as [Ww0 Sw0].
    destruct Mw as (Wdw & W1 & W2). assert (Sdw : shape dw = [n_params m]). { destruct (W1 t0) as [_ E]. congruence. }
    assert (Lw : forall t, length (data (w t)) = n_params m).
    { intros t. destruct (W1 t) as [A B]. unfold wf in A. rewrite A, B, Sdw. numels. lia. }
    assert (Pw : pcurve (n_params m) (fun t => data (w t)) t0 (fun p => nth p (data dw) 0%R)).
    { split; [intros t; now rewrite Lw|]. intros p Hp. apply W2. rewrite Sdw. numels. lia. }
    assert (E0 : setm m (data (w t0)) = m).
    { pose proof (get_set m w0 Sz Gw) as E. unfold set_weight in E. rewrite <- Ew in E. unfold setm. destruct (set_params m (data (w t0))) as [m' r].
      injection E as -> _. reflexivity. }
    destruct (proj1 typed_D m s s' Ty b c t0 _ _ _ Hb Cu Pw) as (y & F & Cy).
    { rewrite E0. now rewrite Ec. }
    rewrite E0, Ec in Cy.
    exists y, (mkT (b :: s') (data (@tab2 R b (numel s') (fun q i => (bsum (numel s) (fun j => JX m x q i j * fl (numel s) dx q j) +
           bsum (n_params m) (fun p => JW m x q i p * nth p (data dw) 0))%R)))).
    split; [|split; [|split; [reflexivity|]]].
    - intros t. exists (setm m (data (w t))). split; [|apply F].
      destruct (set_params_ok m (data (w t)) Sz) as (m' & E & _); [now rewrite Lw|]. unfold set_weight, setm. rewrite E. reflexivity.
    - eapply curve_moves; [exact Cy| |reflexivity|].
      + unfold wf. cbn [data shape]. transitivity (numel [b; numel s']); [apply wf_tab|]. rewrite !numel_cons, numel_nil. ring.
      + intros q i Hq Hi. change (fl (numel s') (mkT (b :: s') (data ?t)) q i) with (fl (numel s') t q i). now rewrite fl_tab2 by auto.
    - intros q i Hq Hi. cbn [data].
      change (nth (q * numel s' + i) (data (@tab2 R b (numel s') ?f)) 0%R) with (fl (numel s') (@tab2 R b (numel s') f) q i).
      rewrite fl_tab2 by auto. f_equal; apply bsum_ext; intros j Hj; now rewrite entry_dense by auto.
  Qed.
  Lemma weight_derivative h w0 : smooth m x -> get_weight m = Ok w0 ->
    exists J, snd (jacobian m h x None Weight) = Ok (Some J) /\ wf J /\ shape J = [b; numel s'; n_params m] /\
      forall w t0 dw, w t0 = w0 -> moves w t0 dw ->
      exists y v, (forall t, exists m', set_weight m (w t) = (m', Ok tt) /\ fwd m' x = Ok (y t)) /\
        moves y t0 v /\ shape v = b :: s' /\
        forall q i, q < b -> i < numel s' -> nth (q * numel s' + i) (data v) 0%R =
          bsum (n_params m) (fun p => entry J q i p * nth p (data dw) 0)%R.
  Proof.
    intros Sm Gw. destruct (joint_derivative h h w0 Sm Gw) as (Jx & J & _ & EJ & WJ & SJ & D).
    exists J. split; auto. split; auto. split; auto. intros w t0 dw Ew Mw.
    destruct (D (fun _ => x) w t0 (zeros (b :: s)) dw eq_refl) as (y & v & Fy & My & Sv & Hv); auto.
    - split; [apply wf_tab|]. split; [intros; cbn; now split|]. intros k Hk. pose proof (nth_zeros (K := R) (b :: s) k) as E. cbn [n0 Num_R] in E. rewrite E. apply dl_const.
    - exists y, v. split; auto. split; auto. split; auto. intros q i Hq Hi. rewrite Hv by auto.
      rewrite (bsum_ext (numel s) _ (fun j => entry Jx q i j * 0)%R).
      + rewrite zero_sum. apply Rplus_0_l.
      + intros j Hj. f_equal. exact (nth_zeros (K := R) (b :: s) (q * numel s + j)).
  Qed.
End Props.
