(** ggn: the Hessian in the output, entry by entry, and the result on typed networks. *)
From Coq Require Import List Arith Lia Bool Reals Lra.
From Verif Require Import Scalar Sums Tensor TensorLemmas Conv Abstract Simple LinearLayer ConvLayer PoolLayer Module LogLik Spec Domain Smooth OpLemmas Jac
  LeafSpec TreeBase TreeVjp Leaves Trees ValArg Deriv LikSpec LikFlat LikCalc LikGrad Calc Params DiagSpec DiagBack.
Import ListNotations.
Local Open Scope nat_scope.
Local Open Scope list_scope.

Lemma unravel_snoc s c : forall k j, j < c -> k < numel s -> unravel (s ++ [c]) (k * c + j) = unravel s k ++ [j].
Proof.
  induction s as [|d s IH]; intros k j Hj Hk.
  - rewrite numel_nil in Hk. assert (k = 0) by lia. subst. cbn [app unravel]. rewrite numel_nil, Nat.div_1_r. reflexivity.
  - cbn [app unravel]. rewrite numel_app, numel_cons, numel_nil, Nat.mul_1_r. rewrite numel_cons in Hk. set (N := numel s) in *.
    assert (HN : N <> 0) by (intros E; rewrite E in Hk; lia). assert (Hc : c <> 0) by lia.
    pose proof (Nat.div_mod k N HN) as Ek. pose proof (Nat.mod_upper_bound k N HN) as Hm.
    assert (E : k * c + j = N * c * (k / N) + (k mod N * c + j)) by (rewrite Ek at 1; ring).
    assert (L : k mod N * c + j < N * c) by nia.
    rewrite <- (Nat.div_unique _ _ _ _ L E), <- (Nat.mod_unique _ _ _ _ L E). now rewrite IH.
Qed.
Lemma last_coord s : forall k, s <> [] -> k < numel s -> nth (length s - 1) (unravel s k) 0 = k mod last s 0.
Proof.
  induction s as [|d s IH]; intros k Hs Hk; [congruence|]. destruct s as [|d' s'].
  - cbn. rewrite numel_cons, numel_nil, Nat.mul_1_r in Hk. rewrite numel_nil, Nat.div_1_r. now rewrite Nat.mod_small.
  - remember (d' :: s') as s eqn:Es. assert (Ns : s <> []) by (subst; discriminate).
    replace (length (d :: s) - 1) with (S (length s - 1)) by (subst; cbn; lia). cbn [unravel nth].
    replace (last (d :: s) 0) with (last s 0) by (subst; reflexivity).
    rewrite numel_cons in Hk. assert (HN : numel s <> 0) by (intros E; rewrite E in Hk; lia).
    pose proof (Nat.mod_upper_bound k (numel s) HN) as Hm. rewrite IH by auto.
    destruct (ravel_last s 0 0 Ns ltac:(lia)) as [_ [g Eg]]. set (c := last s 0) in *.
    assert (Hc : c <> 0) by (intros E; rewrite E in Eg; lia).
    rewrite (Nat.div_mod k (numel s)) at 2 by auto. rewrite Eg at 2. replace (g * c * (k / numel s) + k mod numel s) with (k mod numel s + (g * (k / numel s)) * c) by ring.
    now rewrite Nat.mod_add.
Qed.
Lemma unravel_len s k : length (unravel s k) = length s.
Proof. revert k. induction s as [|d s IH]; intros k; cbn; auto. Qed.
Lemma set_last {A} (l : list A) a : l <> [] -> set_nth (length l - 1) a l = firstn (length l - 1) l ++ [a].
Proof.
  induction l as [|x l IH]; [congruence|]. intros _. destruct l as [|x' l]; [reflexivity|].
  replace (length (x :: x' :: l) - 1) with (S (length (x' :: l) - 1)) by (cbn; lia). cbn [set_nth firstn app]. f_equal. apply IH. discriminate.
Qed.

Section Hess.
  Variables (k : lik) (b : nat) (s : list nat) (y : tensor R).
  Hypothesis (Hb : 0 < b) (Wy : wf y) (Sy : shape y = b :: s) (Hk : k = LogBernoulli -> s <> []).
  Hypothesis (Hn : 0 < numel s).
  Notation n := (numel s).
  Notation c := (last s 0).

  (** the likelihoods whose Hessian the code can form: for LogBernoulli one group of classes *)
  Definition one_group : Prop := k = LogBernoulli -> numel s = last s 0.
  Definition diag_lik : bool := match k with LogBernoulli => false | _ => true end.
  Lemma get2_flat (t : tensor R) q i : shape t = [b; n] -> get 0%R t [q; i] = nth (q * n + i) (data t) 0%R.
  Proof. intros S2. unfold get. rewrite S2. cbn [ravel]. now rewrite numel_nil, numel_cons, numel_nil, !Nat.mul_1_r, !Nat.add_0_r. Qed.
  Lemma hessian_flat : one_group ->
    exists H, out_hessian k b y = Ok (H, diag_lik) /\ wf H /\ shape H = metric_shape diag_lik b n /\
      forall q i j, q < b -> i < n -> j < n -> metric diag_lik H q i j = hess k c (sample n y q) i j.
  Proof.
    intros G. unfold diag_lik. destruct k eqn:Ek; cbn [out_hessian].
    - rewrite Sy. rewrite (flat_ok _ b s) by (auto; lia). cbn [bind]. eexists. split; [reflexivity|].
      assert (Wo : wf (emap nopp (@ones R _ (b :: s)))) by (apply wf_emap, wf_tab).
      split; [unfold wf in *; cbn [data shape] in *; rewrite Wo; cbn; rewrite !numel_cons, numel_nil; ring|]. split; [reflexivity|].
      intros q i j Hq Hi Hj. cbn [metric hess]. destruct (Nat.eqb i j); [|reflexivity]. cbn [n0 Num_R]. rewrite get2_flat by reflexivity. cbn [data].
      assert (L : q * n + i < numel (b :: s)) by (rewrite numel_cons; nia).
      etransitivity; [exact (emap_flat (K := R) nopp (ones (b :: s)) _ (wf_tab _ _) L)|]. exact (f_equal Ropp (nth_ones (K := R) (b :: s) _ L)).
    - rewrite (flat_ok _ b s) by (auto; try lia; exact Sy). cbn [bind]. eexists. split; [reflexivity|].
      assert (Wo : wf (emap (fun p => nsub (nmul p p) p) (binary_prob y))) by (apply wf_emap, wf_emap, Wy).
      split; [unfold wf in *; cbn [data shape] in *; rewrite Wo; cbn [shape emap binary_prob]; rewrite Sy, !numel_cons, numel_nil; ring|]. split; [reflexivity|].
      intros q i j Hq Hi Hj. cbn [metric hess]. destruct (Nat.eqb i j); [|reflexivity]. cbn [n0 Num_R]. rewrite get2_flat by reflexivity. cbn [data].
      assert (L : q * n + i < numel (shape y)) by (rewrite Sy, numel_cons; nia).
      etransitivity; [exact (emap_flat (K := R) (fun p => nsub (nmul p p) p) (binary_prob y) _ (wf_emap _ _ Wy) L)|].
      exact (f_equal (fun p : R => nsub (nmul p p) p) (emap_flat (K := R) _ y _ Wy L)).
    - specialize (Hk eq_refl). specialize (G Ek). assert (Hc : c <> 0) by lia. unfold numel0. rewrite Sy. replace (Nat.eqb b 0) with false by (destruct b; [lia|reflexivity]). cbn [bind].
      replace (last (b :: s) 0) with c by (destruct s; [congruence|reflexivity]).
      destruct (Nat.eqb_spec c 0); [contradiction|]. cbn [negb check].
      destruct (softmax_flat b s y y Wy Sy Sy Hk) as (p & Ep & Wp & Sp & Hp). rewrite Ep. cbn [bind].
      unfold diag_embed. rewrite Sp. replace (last (b :: s) 0) with c by (destruct s; [congruence|reflexivity]). cbn [bind].
      unfold tsub. match goal with |- context [bop nsub ?u ?v] => destruct (bop_flat nsub u v (wf_tab _ _) (wf_tab _ _) eq_refl) as (h & Eh & Wh & Sh & Hh) end.
      rewrite Eh. cbn [bind]. cbn [shape tab] in Sh. rewrite G, Nat.eqb_refl.
      assert (Nh : numel ((b :: s) ++ [c]) = b * c * c) by (rewrite numel_app, !numel_cons, numel_nil, G; ring).
      rewrite reshape_ok by (rewrite Sh, Nh, !numel_cons, numel_nil; ring). cbn [bind]. eexists. split; [reflexivity|].
      split; [unfold wf in *; cbn [data shape]; rewrite Wh, Sh, Nh, !numel_cons, numel_nil; ring|]. split; [reflexivity|].
      intros q i j Hq Hi Hj. cbn [metric]. unfold get at 1. cbn [shape data ravel]. rewrite !numel_cons, numel_nil, !Nat.mul_1_r, !Nat.add_0_r.
      replace (q * (c * c) + (i * c + j)) with ((q * c + i) * c + j) by ring.
      assert (L : q * c + i < numel (b :: s)) by (rewrite numel_cons, G; nia).
      assert (L' : (q * c + i) * c + j < numel ((b :: s) ++ [c])) by (rewrite Nh; nia).
      etransitivity; [apply Hh; exact L'|]. cbn [n0 Num_R] in *. rewrite !(flat_tab 0%R) by exact L'. rewrite unravel_snoc by auto.
      set (U := unravel (b :: s) (q * c + i)). assert (LU : length U = length (b :: s)) by apply unravel_len.
      assert (F1 : firstn (length (b :: s)) (U ++ [j]) = U). { rewrite <- LU, firstn_app, Nat.sub_diag, firstn_O, app_nil_r. apply firstn_all. }
      assert (F2 : firstn (length (b :: s) - 1) (U ++ [j]) = firstn (length U - 1) U).
      { rewrite LU, firstn_app. replace (length (b :: s) - 1 - length U) with 0 by (rewrite LU; cbn; lia). now rewrite firstn_O, app_nil_r. }
      assert (F3 : nth (length (b :: s)) (U ++ [j]) 0 = j) by (rewrite <- LU, app_nth2, Nat.sub_diag by lia; reflexivity).
      assert (F4 : nth (length (b :: s) - 1) (U ++ [j]) 0 = i).
      { rewrite app_nth1 by (rewrite LU; cbn; lia). unfold U. rewrite last_coord by (auto; discriminate).
        replace (last (b :: s) 0) with c by (destruct s; [congruence|reflexivity]). rewrite Nat.add_comm, Nat.mod_add by auto. now apply Nat.mod_small. }
      rewrite F1, F2, F3, F4. rewrite <- set_last by (intros E; rewrite E in LU; discriminate). unfold get. rewrite Sp, LU. unfold U. rewrite ravel_unravel by auto.
      destruct (ravel_last (b :: s) (q * c + i) j ltac:(discriminate) L) as [-> _].
      replace (last (b :: s) 0) with c by (destruct s; [congruence|reflexivity]). rewrite group_of by auto.
      rewrite G in Hp. rewrite !Hp by auto. unfold hess. rewrite !Nat.div_small by auto. cbn [Nat.eqb]. unfold sample. reflexivity.
  Qed.
End Hess.

Lemma agg_value_present l td b n Rm : reduces (ll_agg l) ->
  exists G, agg_value l (VT (present td b n Rm)) = Ok (VT G) /\ aggregates (ll_agg l) td b n Rm G.
Proof.
  intros Ra. destruct td; cbn [present].
  - destruct (agg_rows_value l b n (fun q j => Rm q j j) Ra) as (g & E & Wg & Sg & Hg). exists g. split.
    + revert E. unfold agg_rows, agg_value. destruct Ra as [A|A]; rewrite A; cbn [need to_tensor bind]; congruence.
    + split; auto.
  - assert (E : forall i j, i < n -> j < n -> get 0%R (sum0 (tab3 b n n Rm)) [i; j] = bsum b (fun q => Rm q i j)).
    { intros i j Hi Hj. unfold sum0. etransitivity; [apply (get_tab (A := R)); cbn; auto|]. cbn [shape tab3 tab]. apply bsum_ext. intros q Hq. now rewrite get_tab3. }
    unfold agg_value. destruct Ra as [A|A]; rewrite A; cbn [to_tensor bind].
    + eexists. split; [reflexivity|]. split; [apply wf_tab|]. split; [reflexivity|]. exact E.
    + eexists. split; [reflexivity|]. split; [apply wf_emap, wf_tab|]. split; [reflexivity|]. intros i j Hi Hj. cbn [agg_value_of]. rewrite <- E by auto.
      assert (V : valid (shape (sum0 (tab3 b n n Rm))) [i; j]) by (cbn; auto).
      etransitivity; [exact (get_emap (K := R) (fun a => ndiv a (nnat (dim (tab3 b n n Rm) 0))) (sum0 (tab3 b n n Rm)) [i; j] (wf_tab _ _) V)|].
      cbn [dim shape tab3 tab nth]. rewrite nnat_R. reflexivity.
Qed.

Section Ggn.
  Variables (k : lik) (l : loglik) (m : module R) (s s' : list nat) (b : nat) (x : tensor R).
  Hypothesis (Ty : typed m s s') (Hb : 0 < b) (Wx : wf x) (Sx : shape x = b :: s).
  Hypothesis (Hk : k = LogBernoulli -> s' <> [] /\ numel s' = last s' 0) (Ra : reduces (ll_agg l)).
  Notation n := (numel s').
  Notation c := (last s' 0).
  Let td : bool := match ll_shape l with MDiag => true | _ => false end.
  Let db : bool := match ll_backprop l with MApprox => true | _ => false end.

  Lemma ggn_flat h w : w <> Other ->
    exists y H, fwd m x = Ok y /\ wf H /\ shape H = metric_shape (diag_lik k) b n /\
      (forall q i j, q < b -> i < n -> j < n -> metric (diag_lik k) H q i j = hess k c (sample n y q) i j) /\
      snd (ll_ggn k l m h x w) = bind (snd (jTmjp m st0 x None (VT H) w (diag_lik k) td db)) (agg_value l).
  Proof.
    intros Hw. destruct (fwd_total m s s' b x Ty Hb Wx Sx) as (y & Fy & Wy & Sy).
    destruct (hessian_flat k b s' y Hb Wy Sy (fun E => proj1 (Hk E)) (proj2 (typed_pos_m m s s' Ty)) (fun E => proj2 (Hk E))) as (H & EH & WH & SH & HH).
    exists y, H. split; auto. split; auto. split; auto. split; auto.
    unfold ll_ggn, size. rewrite Sx. cbn [nth_error].
    assert (C : coh m (fst (forward m h x)) x) by (eapply (typed_coh BF BPF); eauto).
    pose proof (jTmjp_val m s s' w Ty Hw (VT H) (diag_lik k) td db b x y st0 _ Hb Wx Sx Fy C) as V. cbn beta in V.
    pose proof (forward_pure m h x) as Ep. destruct (forward m h x) as [h' r1]. cbn [fst snd] in *. rewrite Ep, Fy. cbn [bind].
    rewrite EH. cbn [bind]. rewrite V. fold td db. destruct (jTmjp m h' x (Some y) (VT H) w (diag_lik k) td db). reflexivity.
  Qed.
  Definition hessians (y : tensor R) (Hm : nat -> nat -> nat -> R) : Prop :=
    forall t q, q < b -> proper k c n t -> is_hessian n (log_density k c n t) (sample n y q) (Hm q).
  Lemma hess_ok y : hessians y (fun q => hess k c (sample n y q)).
  Proof.
    intros t q Hq Pr. apply density_hessian; auto. apply grouped_last; [exact (proj2 (typed_pos_m m s s' Ty))|]. intros E. apply (Hk E).
  Qed.
  Lemma pull_metric J H y np q i j : q < b -> i < np -> j < np ->
    (forall q i j, q < b -> i < n -> j < n -> metric (diag_lik k) H q i j = hess k c (sample n y q) i j) ->
    pull_at n J (metric (diag_lik k) H) q i j = pull_at n J (fun q => hess k c (sample n y q)) q i j.
  Proof. intros Hq Hi Hj HH. unfold pull_at. apply bsum_ext. intros u Hu. apply bsum_ext. intros v Hv. now rewrite HH. Qed.
  Lemma aggregates_ext a n' A B G : (forall q i j, q < b -> i < n' -> j < n' -> A q i j = B q i j) -> aggregates a td b n' A G -> aggregates a td b n' B G.
  Proof.
    intros E (W & S0 & H). split; auto. split; auto. intros i j Hi Hj. specialize (H i j Hi Hj). destruct td; rewrite H; apply agg_ext; intros; now apply E.
  Qed.

  Lemma ggn_input h : all_sym m -> nonempty m -> ll_backprop l = MExact ->
    exists y J Hm G, fwd m x = Ok y /\ snd (jacobian m st0 x None Input) = Ok (Some J) /\ shape J = [b; n; numel s] /\ hessians y Hm /\
      snd (ll_ggn k l m h x Input) = Ok (VT G) /\ aggregates (ll_agg l) td b (numel s) (pull_at n (entry J) Hm) G.
  Proof.
    intros Sy Ne Ex. destruct (ggn_flat h Input ltac:(discriminate)) as (y & H & Fy & WH & SH & HH & E).
    assert (Edb : db = false) by (unfold db; now rewrite Ex). rewrite Edb in E.
    destruct (jTmjp_input m s s' b x Ty Hb Wx Sx st0 st0 (diag_lik k) td H Sy Ne WH SH) as (J & EJ & _ & SJ & EV). rewrite EV in E. cbn [bind] in E.
    destruct (agg_value_present l td b (numel s) (pull_at n (entry J) (metric (diag_lik k) H)) Ra) as (G & EG & HG).
    exists y, J, (fun q => hess k c (sample n y q)), G. split; auto. split; auto. split; auto. split; [apply hess_ok|]. split; [rewrite E; exact EG|].
    eapply aggregates_ext; [|exact HG]. intros. eapply pull_metric; eauto.
  Qed.
  Lemma ggn_weight h : all_sym m -> nonempty m -> n_params m <> 0 -> ll_backprop l = MExact -> (ll_shape l = MDiag \/ exists lf, m = Leaf lf) ->
    exists y J Hm G, fwd m x = Ok y /\ snd (jacobian m st0 x None Weight) = Ok (Some J) /\ shape J = [b; n; n_params m] /\ hessians y Hm /\
      snd (ll_ggn k l m h x Weight) = Ok (VT G) /\ aggregates (ll_agg l) td b (n_params m) (pull_at n (entry J) Hm) G.
  Proof.
    intros Sy Ne Hn Ex Hs. destruct (ggn_flat h Weight ltac:(discriminate)) as (y & H & Fy & WH & SH & HH & E).
    assert (Edb : db = false) by (unfold db; now rewrite Ex). rewrite Edb in E.
    destruct (jTmjp_weight m s s' b x Ty Hb Wx Sx st0 st0 (diag_lik k) td H Sy Ne WH SH) as [Q _]. destruct (Q Hn) as (J & EJ & _ & SJ & EV). rewrite EV in E. clear Q EV.
    assert (Ew : wval td b (pull_at n (entry J) (metric (diag_lik k) H)) m 0 = VT (present td b (n_params m) (pull_at n (entry J) (metric (diag_lik k) H)))).
    { destruct Hs as [Hs|[lf ->]].
      - assert (Etd : td = true) by (unfold td; now rewrite Hs). rewrite Etd. now rewrite wval_diag.
      - cbn [wval n_params] in *. destruct (Nat.eqb_spec (leaf_n_params lf) 0); [contradiction|]. reflexivity. }
    rewrite Ew in E. cbn [bind] in E.
    destruct (agg_value_present l td b (n_params m) (pull_at n (entry J) (metric (diag_lik k) H)) Ra) as (G & EG & HG).
    exists y, J, (fun q => hess k c (sample n y q)), G. split; auto. split; auto. split; auto. split; [apply hess_ok|]. split; [rewrite E; exact EG|].
    eapply aggregates_ext; [|exact HG]. intros. eapply pull_metric; eauto.
  Qed.
  (** a whole Sequential with metric_shape "full": the blocks come as a list, which torch.sum rejects *)
  Lemma ggn_full_raises h hooks ms : m = Seq hooks ms -> all_sym m -> nonempty m -> n_params m <> 0 -> ll_backprop l = MExact -> ll_shape l = MFull ->
    snd (ll_ggn k l m h x Weight) = Raise TypeError.
  Proof.
    intros Em Sy Ne Hn Ex Hs. destruct (ggn_flat h Weight ltac:(discriminate)) as (y & H & Fy & WH & SH & HH & E).
    assert (Edb : db = false) by (unfold db; now rewrite Ex). assert (Etd : td = false) by (unfold td; now rewrite Hs). rewrite Edb, Etd in E.
    destruct (jTmjp_weight m s s' b x Ty Hb Wx Sx st0 st0 (diag_lik k) false H Sy Ne WH SH) as [Q _]. destruct (Q Hn) as (J & EJ & _ & SJ & EV). rewrite EV in E.
    rewrite E, Em. cbn [wval]. rewrite <- Em. destruct (Nat.eqb_spec (n_params m) 0); [contradiction|]. cbn [bind].
    unfold agg_value. destruct Ra as [A|A]; rewrite A; reflexivity.
  Qed.
  (** metric_backprop "approx": refused unless both the Hessian and the result are diagonal *)
  Lemma ggn_approx_raises h hooks ms w : m = Seq hooks ms -> w <> Other -> ll_backprop l = MApprox -> (k = LogBernoulli \/ ll_shape l = MFull) ->
    snd (ll_ggn k l m h x w) = Raise AssertionError.
  Proof.
    intros Em Hw Ex Hs. destruct (ggn_flat h w Hw) as (y & H & Fy & WH & SH & HH & E). rewrite E.
    assert (Edb : db = true) by (unfold db; now rewrite Ex). rewrite Edb, Em. cbn [jTmjp].
    assert (F : db_ok (diag_lik k) td true = false). { unfold td. destruct Hs as [-> | ->]; cbn; auto. now rewrite andb_false_r. }
    rewrite F. reflexivity.
  Qed.
End Ggn.
Lemma ggn_groups_raises l (m : module R) s s' b x h w : typed m s s' -> 0 < b -> wf x -> shape x = b :: s -> s' <> [] -> numel s' <> last s' 0 ->
  snd (ll_ggn LogBernoulli l m h x w) = Raise TypeError.
Proof.
  intros Ty Hb Wx Sx Ns Nc. destruct (fwd_total m s s' b x Ty Hb Wx Sx) as (y & Fy & Wy & Sy). unfold ll_ggn, size. rewrite Sx. cbn [nth_error].
  pose proof (forward_pure m h x) as Ep. destruct (forward m h x) as [h' r1]. cbn [fst snd] in *. rewrite Ep, Fy. cbn [bind].
  pose proof (proj2 (typed_pos_m m s s' Ty)) as Hn. destruct (ravel_last s' 0 0 Ns Hn) as [_ [g Eg]].
  assert (El : last (b :: s') 0 = last s' 0) by (destruct s'; [congruence|reflexivity]).
  cbn [out_hessian]. unfold numel0. rewrite Sy. replace (Nat.eqb b 0) with false by (destruct b; [lia|reflexivity]). cbn [bind]. rewrite El.
  destruct (Nat.eqb_spec (last s' 0) 0) as [E0|_]; [rewrite E0 in Eg; lia|]. cbn [negb check].
  destruct (softmax_flat b s' y y Wy Sy Sy Ns) as (p & E1 & Wp & Sp & Hp). rewrite E1. cbn [bind]. unfold diag_embed. rewrite Sp, El. cbn [bind].
  unfold tsub. match goal with |- context [bop nsub ?u ?v] => destruct (bop_flat nsub u v (wf_tab _ _) (wf_tab _ _) eq_refl) as (hh & Eh & _) end.
  rewrite Eh. cbn [bind]. destruct (Nat.eqb_spec (numel s') (last s' 0)); [contradiction|]. destruct s' as [|a s']; [congruence|]. reflexivity.
Qed.

(** metric_backprop "approx" with a diagonal Hessian and a diagonal result *)
Section Approx.
  Variables (k : lik) (l : loglik) (m : module R) (s s' : list nat) (b : nat) (x : tensor R).
  Hypothesis (Ty : typed m s s') (Hb : 0 < b) (Wx : wf x) (Sx : shape x = b :: s).
  Hypothesis (Hk : k <> LogBernoulli) (Ra : reduces (ll_agg l)) (Hs : ll_shape l = MDiag) (Ex : ll_backprop l = MApprox) (Sy : all_sym m).
  Notation n := (numel s').
  Notation c := (last s' 0).
  Lemma ggn_approx h w : w <> Other -> (w = Weight -> n_params m <> 0) ->
    exists y Hm G, fwd m x = Ok y /\ hessians k s' b y Hm /\
      snd (ll_ggn k l m h x w) = Ok (VT G) /\
      aggregates (ll_agg l) true b (match w with Input => numel s | _ => n_params m end)
        (fun q i _ => match w with Input => dpull m x (fun q i => Hm q i i) q i | _ => dpullw m x (fun q i => Hm q i i) q i end) G.
  Proof.
    intros Hw Hn. assert (Hk' : k = LogBernoulli -> s' <> [] /\ n = c) by (intros E; now destruct Hk).
    destruct (ggn_flat k l m s s' b x Ty Hb Wx Sx Hk' h w Hw) as (y & H & Fy & WH & SH & HH & E).
    rewrite Hs, Ex in E. cbn iota in E. assert (Ed : diag_lik k = true) by (destruct k; auto; congruence). rewrite Ed in *.
    exists y, (fun q => hess k c (sample n y q)). cbn [metric_shape] in SH.
    destruct (dback_none m s s' b st0 x H Ty Sy Hb Wx Sx WH SH) as [Di Dw].
    assert (Ag : agree b n (fun q i => get 0%R H [q; i]) (fun q i => hess k c (sample n y q) i i)).
    { intros q i Hq Hi. rewrite <- HH by auto. cbn [metric]. now rewrite Nat.eqb_refl. }
    assert (Ho : hessians k s' b y (fun q => hess k c (sample n y q))) by (apply (hess_ok k m s s' b Ty); auto).
    destruct w; [| |congruence].
    - rewrite Di in E. cbn [bind] in E.
      destruct (agg_value_present l true b (numel s) (fun q i _ => dpull m x (fun q i => get 0%R H [q; i]) q i) Ra) as (G & EG & HG).
      exists G. split; auto. split; auto. split; [rewrite E; exact EG|]. 
      destruct HG as (W & S0 & HG). split; auto. split; auto. intros i j Hi Hj. rewrite (HG i j Hi Hj). apply agg_ext. intros q Hq. now apply (dpull_agree m s s' b).
    - rewrite Dw in E. unfold wdiag in E. destruct (Nat.eqb_spec (n_params m) 0); [now specialize (Hn eq_refl)|]. cbn [bind] in E.
      destruct (agg_value_present l true b (n_params m) (fun q i _ => dpullw m x (fun q i => get 0%R H [q; i]) q i) Ra) as (G & EG & HG).
      exists G. split; auto. split; auto. split; [rewrite E; exact EG|].
      destruct HG as (W & S0 & HG). split; auto. split; auto. intros i j Hi Hj. rewrite (HG i j Hi Hj). apply agg_ext. intros q Hq. now apply (dpullw_agree m s s' b).
  Qed.
End Approx.
