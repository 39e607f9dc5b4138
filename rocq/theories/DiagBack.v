(** jTmjp and jmjTp with diag_backprop=True compute the layer-by-layer diagonal approximation of DiagSpec. *)
From Coq Require Import String Ascii List Arith ZArith Lia Bool.
From Verif Require Import Scalar Sums Tensor TensorLemmas EinsumLemmas Conv Abstract Simple LinearLayer ConvLayer PoolLayer
  Module Spec OpLemmas ReshapeLemmas Domain Jac LeafSpec TreeBase TreeVjp StateCoh TreeMjp TreePull TreeJvp TreeJmp TreePush Leaves Trees DiagSpec.
Import ListNotations.
Local Open Scope nat_scope.
Local Open Scope list_scope.

Section Diag.
  Context {K} `{CR : CRing K}.
  Add Ring Kring : (cring : ring_theory n0 n1 nadd nmul nsub nopp (@eq K)).
  Notation gt := (get (@n0 K _)).
  Notation T := (tensor K).
  Notation D := (@dmetric K).

  (** the metric carried by a (b, n) tensor *)
  Definition dvec (M : T) : D := fun q i => gt M [q; i].
  Definition agree (b n : nat) (d d' : D) : Prop := forall q i, q < b -> i < n -> d q i = d' q i.
  Lemma dvec_tab b n (d : D) : agree b n (dvec (tab2 b n d)) d.
  Proof. intros q i Hq Hi. unfold dvec. now rewrite get_tab2. Qed.
  Lemma layer_J_in m s s' b x q i j : typed m s s' -> 0 < b -> wf x -> shape x = b :: s -> q < b -> i < numel s' -> j < numel s ->
    layer_J m x Input q i j = JX m x q i j.
  Proof. intros Ty Hb Wx Sx Hq Hi Hj. unfold layer_J. rewrite (jac_input m s s' b x Ty Hb Wx Sx). now apply entry_dense. Qed.
  Lemma layer_J_w m s s' b x q i j : typed m s s' -> 0 < b -> wf x -> shape x = b :: s -> q < b -> i < numel s' -> j < n_params m ->
    layer_J m x Weight q i j = JW m x q i j.
  Proof. intros Ty Hb Wx Sx Hq Hi Hj. unfold layer_J. rewrite (jac_weight m s s' b x Ty Hb Wx Sx) by lia. now apply entry_dense. Qed.
  Lemma pull_diag n J (d : D) q j l : pull_at n J (dmat d) q j l = bsum n (fun i => nmul (nmul (J q i j) (d q i)) (J q i l)).
  Proof.
    unfold pull_at. apply bsum_ext. intros i Hi.
    rewrite (bsum_ext n _ (fun k => nmul (delta i k) (nmul (nmul (J q i j) (d q i)) (J q k l)))).
    - now rewrite bsum_delta_l.
    - intros k Hk. unfold dmat, delta. destruct (Nat.eqb_spec i k); ring.
  Qed.
  Lemma push_diag n J (d : D) q j l : push_at n J (dmat d) q j l = bsum n (fun i => nmul (nmul (J q j i) (d q i)) (J q l i)).
  Proof.
    unfold push_at. apply bsum_ext. intros i Hi.
    rewrite (bsum_ext n _ (fun k => nmul (delta i k) (nmul (nmul (J q j i) (d q i)) (J q l k)))).
    - now rewrite bsum_delta_l.
    - intros k Hk. unfold dmat, delta. destruct (Nat.eqb_spec i k); ring.
  Qed.
  Lemma metric_dmat M : metric true M = dmat (dvec M).
  Proof. reflexivity. Qed.
  Lemma width_of (x : T) b s : shape x = b :: s -> width x = numel s.
  Proof. intros S. unfold width. now rewrite S. Qed.
  Lemma dpull_seq_cons m ms x y (d : D) : fwd m x = Ok y -> seq_dpull dpull (m :: ms) x d = dpull m x (seq_dpull dpull ms y d).
  Proof. intros E. cbn [seq_dpull]. now rewrite E. Qed.

  (** only the entries of the metric within range matter *)
  Lemma dpull_ext :
    (forall m s s', typed (K := K) m s s' -> forall b x d d', 0 < b -> wf x -> shape x = b :: s -> agree b (numel s') d d' ->
      agree b (numel s) (dpull m x d) (dpull m x d') /\ agree b (n_params m) (dpullw m x d) (dpullw m x d')) /\
    (forall ms s s', typed_seq (K := K) ms s s' -> forall b x d d', 0 < b -> wf x -> shape x = b :: s -> agree b (numel s') d d' ->
      agree b (numel s) (seq_dpull dpull ms x d) (seq_dpull dpull ms x d') /\
      agree b (seq_np ms) (seq_dpullw dpullw ms x d) (seq_dpullw dpullw ms x d')).
  Proof.
    apply typed_both.
    - intros l s s' Ty b x d d' Hb Wx Sx A. destruct (fwd_total _ _ _ b x (ty_leaf l s s' Ty) Hb Wx Sx) as (y & Fy & Wy & Sy).
      unfold agree in *. cbn [dpull dpullw]. rewrite Fy. split; intros q j Hq Hj; apply bsum_ext; intros i Hi; rewrite A; auto; now rewrite (width_of _ _ _ Sy) in Hi.
    - intros l s s' Ty b x d d' Hb Wx Sx A. destruct (fwd_total _ _ _ b x (ty_pool l s s' Ty) Hb Wx Sx) as (y & Fy & Wy & Sy).
      unfold agree in *. cbn [dpull dpullw]. rewrite Fy. split; intros q j Hq Hj; apply bsum_ext; intros i Hi; rewrite A; auto; now rewrite (width_of _ _ _ Sy) in Hi.
    - intros ms s s' Ty IH b x d d' Hb Wx Sx A. cbn [dpull dpullw]. now apply IH.
    - intros ms c c' r Ty IH b x d d' Hb Wx Sx A.
      assert (N' : numel (c + c' :: r) = numel (c :: r) + numel (c' :: r)) by (numels; ring).
      assert (A1 : agree b (numel (c' :: r)) (fun q i => d q (width x + i)) (fun q i => d' q (width x + i))).
      { intros q i Hq Hi. apply A; auto. rewrite (width_of _ _ _ Sx). lia. }
      destruct (IH b x _ _ Hb Wx Sx A1) as [I1 I2]. split; intros q i Hq Hi; cbn [dpull dpullw].
      + rewrite A by lia. f_equal. now apply I1.
      + now apply I2.
    - intros s Hs b x d d' Hb Wx Sx A. split; auto. intros q i Hq Hi. cbn in Hi. lia.
    - intros m ms s s1 s2 Tm IHm Ts IHs b x d d' Hb Wx Sx A.
      destruct (fwd_total _ _ _ b x Tm Hb Wx Sx) as (y & Fy & Wy & Sy).
      destruct (IHs b y d d' Hb Wy Sy A) as [I1 I2]. destruct (IHm b x _ _ Hb Wx Sx I1) as [J1 J2].
      cbn [seq_dpull seq_dpullw]. rewrite Fy. split; auto. intros q p Hq Hp. change (seq_np (m :: ms)) with (n_params m + seq_np ms) in Hp.
      destruct (Nat.ltb_spec p (n_params m)); [now apply J2|]. apply I2; auto. lia.
  Qed.
  Lemma dpull_agree m s s' b x d d' : typed m s s' -> 0 < b -> wf x -> shape x = b :: s -> agree b (numel s') d d' ->
    agree b (numel s) (dpull m x d) (dpull m x d').
  Proof. intros Ty Hb Wx Sx A. now apply (proj1 dpull_ext m s s' Ty b x d d'). Qed.
  Lemma dpullw_agree m s s' b x d d' : typed m s s' -> 0 < b -> wf x -> shape x = b :: s -> agree b (numel s') d d' ->
    agree b (n_params m) (dpullw m x d) (dpullw m x d').
  Proof. intros Ty Hb Wx Sx A. now apply (proj1 dpull_ext m s s' Ty b x d d'). Qed.

  Definition wdiag (m : module K) (b : nat) (d : D) : value K := if n_params m =? 0 then VNone else VT (tab2 b (n_params m) d).
  Definition dback_ok (m : module K) (s s' : list nat) (st : st K) b (x : T) val (M : T) : Prop :=
    jTmjp m st x val (VT M) Input true true true = (st, Ok (VT (tab2 b (numel s) (dpull m x (dvec M))))) /\
    jTmjp m st x val (VT M) Weight true true true = (st, Ok (wdiag m b (dpullw m x (dvec M)))).
  (** the tensors collected over a list of modules, concatenated, are d *)
  Definition wlist (b n : nat) (d : D) (vs : list (value K)) : Prop :=
    exists ts, mapM to_tensor vs = Ok ts /\ cats2 b n d ts /\ (vs = [] <-> n = 0) /\ (ts = [] <-> n = 0).
  Definition seq_dback_P (ms : list (module K)) s s' : Prop := all_sym_seq ms ->
    forall b fma k fm ks x M, 0 < b -> wf x -> shape x = b :: s ->
       coh_seq coh ms ks fm x -> skipn k fma = fm -> wf M -> shape M = [b; numel s'] ->
      seq_jTmjp_in jTmjp true fma ms ks k (VT M) true true true =
        (ks, Ok (VT (tab2 b (numel s) (seq_dpull dpull ms x (dvec M))))) /\
      exists v' vs, seq_jTmjp_w jTmjp true fma ms ks k (VT M) true true true = (ks, Ok (vs, v')) /\
        wlist b (seq_np ms) (seq_dpullw dpullw ms x (dvec M)) vs /\
        (k <> 0 -> v' = VT (tab2 b (numel s) (seq_dpull dpull ms x (dvec M)))).

  Lemma leaf_case (m : module K) s s' b x y M : typed m s s' -> match m with Leaf _ | MaxPool _ => True | _ => False end ->
    0 < b -> wf x -> shape x = b :: s -> fwd m x = Ok y ->
    pull b (numel s') (numel s) (JX m x) true true M = tab2 b (numel s) (dpull m x (dvec M)) /\
    pull b (numel s') (n_params m) (JW m x) true true M = tab2 b (n_params m) (dpullw m x (dvec M)).
  Proof.
    intros Ty Lf Hb Wx Sx Fy. destruct (typed_fwd_y BF BPF _ _ _ b x y Ty Hb Wx Sx Fy) as [Wy Sy].
    assert (Ed : dpull m x (dvec M) = diag_pull (numel s') (layer_J m x Input) (dvec M) /\
                 dpullw m x (dvec M) = diag_pull (numel s') (layer_J m x Weight) (dvec M)).
    { destruct m; try contradiction; cbn [dpull dpullw]; rewrite Fy, (width_of _ _ _ Sy); auto. }
    destruct Ed as [-> ->]. split; apply tab2_ext; intros q j Hq Hj; rewrite metric_dmat, pull_diag; apply bsum_ext; intros i Hi.
    - now rewrite (layer_J_in m s s' b).
    - now rewrite (layer_J_w m s s' b).
  Qed.

  Lemma wlist_cat b n d vs : wlist b n d vs -> n <> 0 -> exists ts, mapM to_tensor vs = Ok ts /\ cat n0 1 ts = Ok (tab2 b n d).
  Proof. intros (ts & E & C & _ & N) Hn. exists ts. split; auto. apply (cats2_cat _ _ _ _ (fun h => Hn (proj1 N h)) C). Qed.

  Lemma dback_seq_body ms s s' : seq_dback_P ms s s' -> all_sym_seq ms ->
    forall b st x val M, 0 < b -> wf x -> shape x = b :: s -> coh (Seq true ms) st x -> wf M -> shape M = [b; numel s'] ->
      dback_ok (Seq true ms) s s' st b x (Some val) M.
  Proof.
    intros IH Sy b st x val M Hb Wx Sx [_ C] Wv Sv.
    destruct (IH Sy b (st_fm st) 0 (st_fm st) (st_kids st) x M Hb Wx Sx C eq_refl Wv Sv) as (E & v' & vs & Ew & L & _).
    split; cbn [jTmjp ensure bind db_ok negb orb andb].
    - rewrite E. cbn [bind]. now rewrite st_eta.
    - rewrite Ew. cbn [bind]. rewrite st_eta. f_equal. unfold wdiag. change (n_params (Seq true ms)) with (seq_np ms). cbn [dpullw].
      destruct (Nat.eqb_spec (seq_np ms) 0) as [Z|Z].
      + destruct L as (ts & _ & _ & N & _). now rewrite (proj2 N Z).
      + destruct (wlist_cat _ _ _ _ L Z) as (ts & E1 & E2). destruct L as (ts' & _ & _ & N & _).
        destruct vs as [|v vs]; [tauto|]. rewrite E1. cbn [bind]. now rewrite E2.
  Qed.

  Lemma dback_skip ms c c' r b st x y M : typed_seq ms (c :: r) (c' :: r) ->
    0 < b -> wf x -> shape x = b :: c :: r -> fwd (Skip (Seq true ms)) x = Ok y -> coh (Skip (Seq true ms)) st x ->
    wf M -> shape M = [b; numel (c + c' :: r)] ->
    (forall val M, wf M -> shape M = [b; numel (c' :: r)] -> dback_ok (Seq true ms) (c :: r) (c' :: r) (st_kid st) b x (Some val) M) ->
    dback_ok (Skip (Seq true ms)) (c :: r) (c + c' :: r) st b x (Some y) M.
  Proof.
    intros Ty Hb Wx Sx Fy (Ck & C) Wv Sv I.
    destruct (typed_fwd_y BF BPF _ _ _ b x y (ty_skip ms c c' r Ty) Hb Wx Sx Fy) as [Wy Sy].
    assert (N' : numel (c + c' :: r) = numel (c :: r) + numel (c' :: r)) by (numels; ring).
    assert (Ps : width x = numel (c :: r)) by now apply (width_of x b).
    set (l1 := numel (c :: r)) in *. set (l2 := numel (c' :: r)) in *. unfold dback_ok. rewrite N' in Sv.
    destruct (slice_from_any y l1) as [vy Ey]; [unfold rank; rewrite Sy; cbn; lia|].
    assert (Est : set_kid st (st_kid st) = st). { unfold set_kid. rewrite <- Ck. apply st_eta. }
    set (sub := tab2 b l2 (fun q j => gt M [q; l1 + j])).
    assert (Esub : slice_from n0 1 l1 M = Ok sub).
    { unfold slice_from. replace (dim M 1) with (l1 + l2) by (unfold dim; now rewrite Sv). now rewrite slice1_2 with (b := b) (n := l1 + l2). }
    destruct (I vy sub (wf_tab _ _) eq_refl) as [I1 I2]. fold l1 l2 in I1, I2.
    assert (Ag : agree b l2 (dvec sub) (fun q i => dvec M q (width x + i))).
    { intros q i Hq Hi. unfold sub, dvec. rewrite get_tab2 by auto. now rewrite Ps. }
    assert (TyS : typed (Seq true ms) (c :: r) (c' :: r)) by now constructor.
    remember (Seq true ms) as F eqn:EF.
    split; cbn [jTmjp db_ok negb orb andb ensure bind to_tensor];
      rewrite (numel0_ok x b (c :: r) Hb Sx); fold l1; cbn [bind]; rewrite Ey; cbn [bind]; rewrite Esub; cbn [bind].
    - rewrite I1. rewrite Est. f_equal. change l1 with (0 + l1) at 1. rewrite slice1_2 with (b := b) (n := l1 + l2) by (auto; lia). cbn [bind to_tensor].
      rewrite tadd_tab2. cbn [bind]. do 2 f_equal. fold l1. apply tab2_ext. intros q j Hq Hj. cbn [dpull Nat.add].
      rewrite (dpull_agree F _ _ b x (dvec sub) (fun q i => dvec M q (width x + i)) TyS Hb Wx Sx Ag q j Hq Hj). unfold dvec at 2. ring.
    - rewrite I2. rewrite Est. do 2 f_equal. unfold wdiag. cbn [n_params]. destruct Nat.eqb; auto. f_equal. apply tab2_ext. intros q j Hq Hj.
      cbn [dpullw]. now apply (dpullw_agree F (c :: r) (c' :: r) b x).
  Qed.

  Lemma wlist_ext b n (d d' : D) vs : agree b n d d' -> wlist b n d vs -> wlist b n d' vs.
  Proof. intros A (ts & E & C & N). exists ts. split; auto. split; auto. eapply cats2_ext; [|exact C]. intros q j Hq Hj. now rewrite A. Qed.

  Lemma tree_dback :
    (forall m s s', typed m s s' -> all_sym m -> forall b st x y M, 0 < b -> wf x -> shape x = b :: s ->
       fwd m x = Ok y -> coh m st x -> wf M -> shape M = [b; numel s'] -> dback_ok m s s' st b x (Some y) M) /\
    (forall ms s s', typed_seq ms s s' -> seq_dback_P ms s s').
  Proof.
    assert (Fl : flags_ok true true true) by (intros _; auto).
    apply typed_both.
    - intros l s s' Ty Sy b st x y M Hb Wx Sx Fy _ Wv Sv.
      destruct (leaf_case (Leaf l) s s' b x y M (ty_leaf l s s' Ty) I Hb Wx Sx Fy) as [L1 L2]. rewrite fwd_Leaf in Fy.
      destruct (BLp l s s' Ty Sy b x y (Some y) Hb Wx Sx Fy (or_intror eq_refl) true true true M Fl Wv Sv) as [E1 E2].
      split; cbn [jTmjp to_opt bind].
      + rewrite E1. cbn [bind of_opt]. cbn [JX] in L1. now rewrite L1.
      + rewrite E2. cbn [bind]. f_equal. f_equal. unfold wdiag, wopt. cbn [n_params JW] in *. rewrite L2. now destruct Nat.eqb.
    - intros cfg s s' Ty Sy b st x y M Hb Wx Sx Fy (y' & i & E & Ei) Wv Sv.
      destruct (leaf_case (MaxPool cfg) s s' b x y M (ty_pool cfg s s' Ty) I Hb Wx Sx Fy) as [L1 L2]. rewrite fwd_Pool, E in Fy.
      injection Fy as ->. 
      destruct (BPp cfg s s' Ty b x y i Hb Wx Sx E true true true M Fl Wv Sv) as [E1 E2].
      split; cbn [jTmjp ensure bind to_opt]; rewrite Ei; [rewrite E1|rewrite E2]; cbn [bind of_opt]; [now rewrite L1|reflexivity].
    - intros ms s s' Ty IH Sy b st x y M Hb Wx Sx Fy C Wv Sv. cbn [all_sym] in Sy. rewrite sym_go in Sy. now apply dback_seq_body.
    - intros ms c c' r Ty IH Sy b st x y M Hb Wx Sx Fy C Wv Sv. cbn [all_sym] in Sy.
      rewrite sym_go in Sy. apply dback_skip; auto. destruct C as [Ck C]. intros val M0 W S. now apply dback_seq_body.
    - intros s Hs _ b fma k fm ks x M Hb Wx Sx [-> _] _ Wv Sv.
      assert (EM : VT M = VT (tab2 b (numel s) (dvec M))) by (f_equal; apply (tab2_eq n0); auto).
      split; [cbn [seq_jTmjp_in seq_dpull]; now rewrite <- EM|].
      exists (VT M), []. split; [reflexivity|]. split.
      + exists []. split; [reflexivity|]. split; [apply cats2_nil|]. split; split; auto.
      + intros _. exact EM.
    - intros m ms s s1 s2 Tm IHm Ts IHs [Sm Ss] b fma k fm ks x M Hb Wx Sx
        (st & ks' & fm' & y & -> & -> & Fy & Cm & Cs) Sk Wv Sv.
      destruct (typed_fwd_y BF BPF _ _ _ b x y Tm Hb Wx Sx Fy) as [Wy Sy].
      destruct (skipn_nth _ _ _ _ Sk) as [_ Sk']. destruct (coh_seq_head _ _ _ _ _ Cs) as [r ->].
      destruct (IHs Ss b fma (S k) (y :: r) ks' y M Hb Wy Sy Cs Sk' Wv Sv) as (E & v' & vs & Ew & L & Ev).
      specialize (Ev (Nat.neq_succ_0 k)). subst v'.
      set (d1 := seq_dpull dpull ms y (dvec M)) in *. set (v1 := tab2 b (numel s1) d1) in *.
      destruct (IHm Sm b st x y v1 Hb Wx Sx Fy Cm (wf_tab _ _) eq_refl) as [I1 I2].
      assert (Ag : agree b (numel s1) (dvec v1) d1) by apply dvec_tab.
      assert (A1 : tab2 b (numel s) (dpull m x (dvec v1)) = tab2 b (numel s) (seq_dpull dpull (m :: ms) x (dvec M))).
      { apply tab2_ext. intros q j Hq Hj. rewrite (dpull_seq_cons m ms x y _ Fy). now apply (dpull_agree m s s1 b x). }
      assert (Efd : match ms with [] => true | _ => true end = true) by now destruct ms.
      split.
      + cbn [seq_jTmjp_in kid_split]. rewrite E. cbn [bind]. rewrite (fmap2_ok fma k x y r Sk). cbn [bind].
        rewrite Efd. replace (if k =? 0 then true else true) with true by now destruct (k =? 0). rewrite I1. now rewrite A1.
      + cbn [seq_jTmjp_w kid_split]. rewrite Ew. cbn [bind]. rewrite (fmap2_ok fma k x y r Sk). cbn [bind]. rewrite Efd.
        rewrite I2. cbn iota. rewrite I1. cbn [bind].
        eexists (if k =? 0 then VT v1 else VT (tab2 b (numel s) (seq_dpull dpull (m :: ms) x (dvec M)))), _. split; [|split].
        * rewrite A1. destruct (k =? 0); reflexivity.
        * change (seq_np (m :: ms)) with (n_params m + seq_np ms). cbn [seq_dpullw]. rewrite Fy. fold d1.
          unfold wdiag. destruct L as (ts & Et & Ct & Nv & Nt). destruct (Nat.eqb_spec (n_params m) 0) as [Z|Z].
          -- rewrite Z. exists ts. split; auto. split; [|tauto]. eapply cats2_ext; [|exact Ct].
             intros q j Hq Hj. cbn beta. destruct (Nat.ltb_spec j 0); [lia|]. now rewrite Nat.sub_0_r.
          -- eexists. cbn [mapM to_tensor]. rewrite Et. cbn [bind]. split; [reflexivity|]. split; [|split; split; try discriminate; lia].
             eapply cats2_ext; [|apply cats2_cons with (w := n_params m); [reflexivity|exact Ct]].
             intros q j Hq Hj. cbn beta. destruct (Nat.ltb_spec j (n_params m)); [|reflexivity]. rewrite get_tab2 by auto.
             now apply (dpullw_agree m s s1 b x).
        * intros Hk. destruct (Nat.eqb_spec k 0); [lia|reflexivity].
  Qed.

  (** val absent, for every state the module may be in *)
  Lemma dback_none m s s' b st x M : typed m s s' -> all_sym m -> 0 < b -> wf x -> shape x = b :: s -> wf M -> shape M = [b; numel s'] ->
    snd (jTmjp m st x None (VT M) Input true true true) = Ok (VT (tab2 b (numel s) (dpull m x (dvec M)))) /\
    snd (jTmjp m st x None (VT M) Weight true true true) = Ok (wdiag m b (dpullw m x (dvec M))).
  Proof.
    intros Ty Sy Hb Wx Sx Wv Sv. destruct (fwd_total m s s' b x Ty Hb Wx Sx) as (y & Fy & Wy & Sy').
    pose proof (typed_coh BF BPF m s s' Ty b x st Hb Wx Sx) as C.
    destruct (proj1 tree_dback m s s' Ty Sy b (fst (forward m st x)) x y M Hb Wx Sx Fy C Wv Sv) as [I1 I2].
    assert (Fl : flags_ok true true true) by (intros _; auto).
    destruct m as [l|cfg|h ms|F].
    - inversion Ty; subst. destruct (leaf_case (Leaf l) s s' b x y M Ty I Hb Wx Sx Fy) as [L1 L2]. rewrite fwd_Leaf in Fy.
      destruct (BLp l s s' H0 Sy b x y None Hb Wx Sx Fy (or_introl eq_refl) true true true M Fl Wv Sv) as [E1 E2].
      cbn [jTmjp snd to_opt bind]. rewrite E1, E2. cbn [bind of_opt JX JW n_params] in *. rewrite L1, L2. split; [reflexivity|].
      f_equal. unfold wdiag, wopt. cbn [n_params]. now destruct Nat.eqb.
    - cbn [jTmjp] in *. unfold ensure in *. rewrite (forward_eta (MaxPool cfg) st x), Fy in *. cbn [fst snd] in *.
      split; [now injection I1|now injection I2].
    - remember (Seq h ms) as S eqn:ES.
      assert (Q : forall w, jTmjp S st x None (VT M) w true true true = jTmjp S (fst (forward S st x)) x (Some y) (VT M) w true true true).
      { intros w. subst S. cbn [jTmjp db_ok negb orb andb]. unfold ensure. rewrite (forward_eta (Seq h ms) st x) at 1. rewrite Fy. reflexivity. }
      rewrite !Q, I1, I2. split; reflexivity.
    - remember (Skip F) as S eqn:ES.
      assert (Q : forall w, jTmjp S st x None (VT M) w true true true = jTmjp S (fst (forward S st x)) x (Some y) (VT M) w true true true).
      { intros w. subst S. cbn [jTmjp db_ok negb orb andb]. unfold ensure. rewrite (forward_eta (Skip F) st x) at 1. rewrite Fy. reflexivity. }
      rewrite !Q, I1, I2. split; reflexivity.
  Qed.

  (** *** forwards *)
  Lemma dpush_ext :
    (forall m s s', typed (K := K) m s s' -> forall b x d d', 0 < b -> wf x -> shape x = b :: s ->
      (agree b (numel s) d d' -> agree b (numel s') (dpush m x d) (dpush m x d')) /\
      (agree b (n_params m) d d' -> agree b (numel s') (dpushw m x d) (dpushw m x d'))) /\
    (forall ms s s', typed_seq (K := K) ms s s' -> forall b x, 0 < b -> wf x -> shape x = b :: s ->
      (forall d d', agree b (numel s) d d' -> agree b (numel s') (seq_dpush dpush ms x d) (seq_dpush dpush ms x d')) /\
      (forall d d' a a', agree b (seq_np ms) d d' -> agree b (numel s) a a' ->
        agree b (numel s') (seq_dpushw dpushw ms x d a) (seq_dpushw dpushw ms x d' a'))).
  Proof.
    apply typed_both.
    - intros l s s' Ty b x d d' Hb Wx Sx. unfold agree. cbn [dpush dpushw].
      split; intros A q j Hq Hj; apply bsum_ext; intros i Hi; rewrite A; auto. now rewrite (width_of _ _ _ Sx) in Hi.
    - intros l s s' Ty b x d d' Hb Wx Sx. unfold agree. cbn [dpush dpushw].
      split; intros A q j Hq Hj; apply bsum_ext; intros i Hi; rewrite A; auto. now rewrite (width_of _ _ _ Sx) in Hi.
    - intros ms s s' Ty IH b x d d' Hb Wx Sx. cbn [dpush dpushw]. destruct (IH b x Hb Wx Sx) as [I1 I2]. split; auto.
      intros A. apply I2; auto. intros q i _ _. reflexivity.
    - intros ms c c' r Ty IH b x d d' Hb Wx Sx.
      assert (N' : numel (c + c' :: r) = numel (c :: r) + numel (c' :: r)) by (numels; ring).
      destruct (IH b x Hb Wx Sx) as [I1 I2]. pose proof (width_of _ _ _ Sx) as Wd.
      split; intros A q i Hq Hi; cbn [dpush dpushw]; destruct (Nat.ltb_spec i (width x)); try reflexivity.
      + apply A; auto. lia.
      + apply (I1 d d' A q); auto. lia.
      + apply (I2 d d' (fun _ _ => n0) (fun _ _ => n0) A); auto; [|lia]. intros ? ? _ _; reflexivity.
    - intros s Hs b x Hb Wx Sx. split; auto.
    - intros m ms s s1 s2 Tm IHm Ts IHs b x Hb Wx Sx.
      destruct (fwd_total _ _ _ b x Tm Hb Wx Sx) as (y & Fy & Wy & Sy).
      destruct (IHs b y Hb Wy Sy) as [I1 I2].
      cbn [seq_dpush seq_dpushw]. rewrite Fy. split.
      + intros d d' A. apply I1. now apply IHm.
      + intros d d' a a' Ad Aa. apply I2.
        * intros q p Hq Hp. apply Ad; auto. change (seq_np (m :: ms)) with (n_params m + seq_np ms). lia.
        * intros q i Hq Hi. f_equal.
          -- now apply (proj1 (IHm b x a a' Hb Wx Sx) Aa).
          -- apply (proj2 (IHm b x d d' Hb Wx Sx)); auto. intros q0 p H0 Hp. apply Ad; auto. change (seq_np (m :: ms)) with (n_params m + seq_np ms). lia.
  Qed.
  Lemma dpush_agree m s s' b x d d' : typed m s s' -> 0 < b -> wf x -> shape x = b :: s -> agree b (numel s) d d' ->
    agree b (numel s') (dpush m x d) (dpush m x d').
  Proof. intros Ty Hb Wx Sx A. now apply (proj1 dpush_ext m s s' Ty b x d d'). Qed.
  Lemma dpushw_agree m s s' b x d d' : typed m s s' -> 0 < b -> wf x -> shape x = b :: s -> agree b (n_params m) d d' ->
    agree b (numel s') (dpushw m x d) (dpushw m x d').
  Proof. intros Ty Hb Wx Sx A. now apply (proj1 dpush_ext m s s' Ty b x d d'). Qed.

  Definition zero : D := fun _ _ => n0.
  Lemma agree_sym b n d d' : agree b n d d' -> agree b n d' d.
  Proof. intros A q i Hq Hi. symmetry. now apply A. Qed.
  Lemma agree_trans b n d d' d2 : agree b n d d' -> agree b n d' d2 -> agree b n d d2.
  Proof. intros A A' q i Hq Hi. now rewrite A, A'. Qed.
  (** the zero metric stays zero, and a module without parameters contributes nothing *)
  Lemma dpush_zero :
    (forall m s s', typed (K := K) m s s' -> forall b x, 0 < b -> wf x -> shape x = b :: s ->
      agree b (numel s') (dpush m x zero) zero /\ (n_params m = 0 -> forall d, agree b (numel s') (dpushw m x d) zero)) /\
    (forall ms s s', typed_seq (K := K) ms s s' -> forall b x, 0 < b -> wf x -> shape x = b :: s ->
      agree b (numel s') (seq_dpush dpush ms x zero) zero /\
      (seq_np ms = 0 -> forall d a, agree b (numel s) a zero -> agree b (numel s') (seq_dpushw dpushw ms x d a) zero)).
  Proof.
    apply typed_both.
    - intros l s s' Ty b x Hb Wx Sx. cbn [dpush dpushw]. split.
      + intros q i Hq Hi. apply bsum_0. intros. unfold zero. ring.
      + intros Z d q i Hq Hi. rewrite Z. reflexivity.
    - intros l s s' Ty b x Hb Wx Sx. cbn [dpush dpushw]. split.
      + intros q i Hq Hi. apply bsum_0. intros. unfold zero. ring.
      + intros Z d q i Hq Hi. reflexivity.
    - intros ms s s' Ty IH b x Hb Wx Sx. cbn [dpush dpushw]. destruct (IH b x Hb Wx Sx) as [I1 I2]. split; auto.
      intros Z d. apply I2; auto. intros q i _ _. reflexivity.
    - intros ms c c' r Ty IH b x Hb Wx Sx.
      assert (N' : numel (c + c' :: r) = numel (c :: r) + numel (c' :: r)) by (numels; ring).
      destruct (IH b x Hb Wx Sx) as [I1 I2]. pose proof (width_of _ _ _ Sx) as Wd.
      split; [intros q i Hq Hi|intros Z d q i Hq Hi]; cbn [dpush dpushw]; destruct (Nat.ltb_spec i (width x)); try reflexivity.
      + change (dpush (Seq true ms) x zero q (i - width x) = zero q (i - width x)). apply I1; auto. lia.
      + change (dpushw (Seq true ms) x d q (i - width x) = zero q (i - width x)). apply I2; auto; [|lia]. intros ? ? _ _; reflexivity.
    - intros s Hs b x Hb Wx Sx. cbn. split; auto. intros q i _ _; reflexivity.
    - intros m ms s s1 s2 Tm IHm Ts IHs b x Hb Wx Sx.
      destruct (fwd_total _ _ _ b x Tm Hb Wx Sx) as (y & Fy & Wy & Sy).
      destruct (IHs b y Hb Wy Sy) as [I1 I2]. destruct (IHm b x Hb Wx Sx) as [J1 J2].
      cbn [seq_dpush seq_dpushw]. rewrite Fy. split.
      + eapply agree_trans; [|exact I1]. now apply (proj1 (proj2 dpush_ext ms s1 s2 Ts b y Hb Wy Sy)).
      + change (seq_np (m :: ms)) with (n_params m + seq_np ms). intros Z d a Aa. apply I2; [lia|].
        intros q i Hq Hi. rewrite (J2 ltac:(lia) d q i Hq Hi). rewrite (dpush_agree m s s1 b x a zero Tm Hb Wx Sx Aa q i Hq Hi), J1 by auto. unfold zero. ring.
  Qed.

  Definition dforth_ok (m : module K) (s s' : list nat) (st : st K) b (x : T) val : Prop :=
    (forall M, wf M -> shape M = [b; numel s] ->
      snd (jmjTp m st x val (VT M) Input true true true) = Ok (VT (tab2 b (numel s') (dpush m x (dvec M))))) /\
    (n_params m <> 0 -> forall dW off v, rep true b (dmat dW) m off v ->
      snd (jmjTp m st x val v Weight true true true) = Ok (VT (tab2 b (numel s') (dpushw m x (fun q p => dW q (off + p)))))).
  Definition accd (acc : value K) (n : nat) (b : nat) (A : D) : Prop :=
    (acc = VNone /\ agree b n A zero) \/ acc = VT (tab2 b n A).
  Definition seq_dforth_P (ms : list (module K)) s s' : Prop := fwdable_seq ms ->
    forall b fma k fm ks x, 0 < b -> wf x -> shape x = b :: s -> coh_seq coh ms ks fm x -> skipn k fma = fm ->
    (forall M, wf M -> shape M = [b; numel s] ->
       snd (seq_jmjTp_in jmjTp true fma ms ks k (VT M) true true true) =
       Ok (VT (tab2 b (numel s') (seq_dpush dpush ms x (dvec M))))) /\
    (forall dW off bs acc A, reps true b (dmat dW) ms off bs -> accd acc (numel s) b A ->
       snd (seq_jmjTp_w jmjTp true fma ms ks k bs acc true true true) =
       Ok (if match acc with VNone => seq_np ms =? 0 | _ => false end then VNone else
         VT (tab2 b (numel s') (seq_dpushw dpushw ms x (fun q p => dW q (off + p)) A)))).

  Lemma block_dvec b n off (dW : D) : agree b n (dvec (block true b n off (dmat dW))) (fun q p => dW q (off + p)).
  Proof. intros q p Hq Hp. unfold dvec, block, present. rewrite get_tab2 by auto. unfold dmat. now rewrite Nat.eqb_refl. Qed.

  Lemma dforth_leaf (l : leaf K) s s' b x y val st : leaf_typed l s s' -> leaf_fwdable l ->
    0 < b -> wf x -> shape x = b :: s -> leaf_forward l x = Ok y -> val = None \/ val = Some y -> dforth_ok (Leaf l) s s' st b x val.
  Proof.
    intros Ty Fb Hb Wx Sx Fy Vy.
    assert (Fl : flags_ok true true true) by (intros _; auto).
    destruct (proj2 (proj2 (leaf_forth l s s' Ty Fb)) b x y val Hb Wx Sx Fy Vy true true true Fl) as [E1 E2].
    pose proof (ty_leaf l s s' Ty) as TL.
    split.
    - intros M WM SM. cbn [jmjTp snd to_opt bind]. rewrite (E1 M WM SM). cbn [bind of_opt]. do 2 f_equal.
      apply tab2_ext. intros q i Hq Hi. rewrite metric_dmat, push_diag. cbn [dpush]. unfold diag_push. rewrite (width_of _ _ _ Sx).
      apply bsum_ext. intros j Hj. now rewrite (layer_J_in (Leaf l) s s' b).
    - intros Hn dW off v Rp. inversion Rp; subst. cbn [jmjTp snd to_opt bind].
      rewrite E2 by (first [apply wf_tab | reflexivity]). unfold wopt. cbn [n_params] in Hn.
      destruct (Nat.eqb_spec (leaf_n_params l) 0); [contradiction|]. cbn [bind of_opt]. do 2 f_equal.
      apply tab2_ext. intros q i Hq Hi. rewrite metric_dmat, push_diag. cbn [dpushw n_params]. unfold diag_push.
      apply bsum_ext. intros j Hj. rewrite (layer_J_w (Leaf l) s s' b) by auto. cbn [JW]. now rewrite (block_dvec b (leaf_n_params l) off dW q j Hq Hj).
  Qed.

  Lemma dforth_seq_body ms s s' : seq_dforth_P ms s s' -> fwdable_seq ms ->
    forall b st x val, 0 < b -> wf x -> shape x = b :: s -> coh (Seq true ms) st x ->
    dforth_ok (Seq true ms) s s' st b x (Some val).
  Proof.
    intros IH Fb b st x val Hb Wx Sx [_ C].
    destruct (IH Fb b (st_fm st) 0 (st_fm st) (st_kids st) x Hb Wx Sx C eq_refl) as [I1 I2].
    split.
    - intros M WM SM. specialize (I1 M WM SM). cbn [jmjTp db_ok ensure negb orb andb dpush]. destruct seq_jmjTp_in. exact I1.
    - intros Hn dW off v Rp. assert (Hs : exists bs, match v with VL l => Ok l | VT t => seq_blocks ms t 0 true | VNone => Raise TypeError end = Ok bs /\ reps true b (dmat dW) ms off bs).
      { inversion Rp; subst.
        - destruct (seq_blocks_ok true b (dmat dW) off ms 0 (seq_np ms) _ (le_n _) eq_refl) as (vs & E & Rs). rewrite Nat.add_0_r in Rs. eauto.
        - eauto. }
      destruct Hs as (bs & Eb & Rs). specialize (I2 dW off bs VNone zero Rs (or_introl (conj eq_refl (fun _ _ _ _ => eq_refl)))).
      cbn [jmjTp db_ok ensure negb orb andb].
      destruct (Nat.eqb_spec (seq_np ms) 0); [exfalso; apply Hn; assumption|].
      assert (Ev : (('(mt, fd0) <- match v with VNone => b0 <- size 0 x ;; Ok (VT (ones [b0; n_params (Seq true ms)]), true) | _ => Ok (v, true) end ;;
                    bs0 <- match mt with VNone => Raise TypeError | VT t => seq_blocks ms t 0 fd0 | VL l => Ok l end ;; Ok (bs0, fd0)) = Ok (bs, true))).
      { destruct v; [discriminate Eb| |]; cbn [bind]; [now rewrite Eb|]. injection Eb as ->. reflexivity. }
      rewrite Ev. destruct seq_jmjTp_w as [ks r]. cbn [snd] in *. rewrite I2. reflexivity.
  Qed.

  Lemma dforth_skip ms c c' r b st x y : typed_seq ms (c :: r) (c' :: r) ->
    0 < b -> wf x -> shape x = b :: c :: r -> fwd (Skip (Seq true ms)) x = Ok y -> coh (Skip (Seq true ms)) st x ->
    (forall st val, coh (Seq true ms) st x -> dforth_ok (Seq true ms) (c :: r) (c' :: r) st b x (Some val)) ->
    dforth_ok (Skip (Seq true ms)) (c :: r) (c + c' :: r) st b x (Some y).
  Proof.
    intros Ty Hb Wx Sx Fy (Ck & C) I0.
    destruct (typed_fwd_y BF BPF _ _ _ b x y (ty_skip ms c c' r Ty) Hb Wx Sx Fy) as [Wy Sy].
    assert (N' : numel (c + c' :: r) = numel (c :: r) + numel (c' :: r)) by (numels; ring).
    assert (Nx : numel0 x = Ok (numel (c :: r))) by (now apply (numel0_ok x b)).
    assert (Ny : numel0 y = Ok (numel (c + c' :: r))) by (now apply (numel0_ok y b)).
    assert (Es : size 0 x = Ok b) by (unfold size; now rewrite Sx).
    destruct (slice_from_any y (numel (c :: r))) as [t Ey]; [unfold rank; rewrite Sy; cbn; lia|].
    destruct (I0 (st_kid st) t C) as [I1 I2].
    set (l1 := numel (c :: r)) in *. set (l2 := numel (c' :: r)) in *. unfold dforth_ok. rewrite N' in Ny |- *. fold l1 in Ny |- *.
    assert (Ps : width x = l1) by now apply (width_of x b).
    remember (Seq true ms) as F. split.
    - intros M WM SM. specialize (I1 M WM SM). cbn [jmjTp db_ok negb orb andb ensure bind]. rewrite Es, Nx, Ny. cbn [bind]. rewrite Ey. cbn [bind].
      destruct (jmjTp F (st_kid st) x (Some t) (VT M) Input true true true) as [k1 r1]. cbn [snd] in I1. subst r1.
      cbn [snd to_tensor bind]. rewrite cat1_2 with (b := b) (n := l1) (m := l2) by (auto; reflexivity). cbn [bind]. do 2 f_equal.
      apply tab2_ext. intros q i Hq Hi. cbn [dpush]. rewrite Ps. destruct (Nat.ltb_spec i l1); [reflexivity|].
      now rewrite get_tab2 by lia.
    - intros Hn dW off v Rp. apply rep_skip_inv in Rp. specialize (I2 Hn dW off v Rp).
      cbn [jmjTp db_ok negb orb andb ensure bind]. rewrite Es, Nx, Ny. cbn [bind]. rewrite Ey. cbn [bind].
      destruct (jmjTp F (st_kid st) x (Some t) v Weight true true true) as [k1 r1]. cbn [snd] in I2 |- *. subst r1. cbn [to_tensor bind snd].
      rewrite reshape_ok by (rewrite Sx; change (shape (zeros (b :: c :: r))) with (b :: c :: r); rewrite !numel_cons, numel_nil; unfold l1; rewrite !numel_cons; lia).
      cbn [bind]. rewrite cat1_2 with (b := b) (n := l1) (m := l2) by reflexivity. cbn [bind]. do 2 f_equal.
      apply tab2_ext. intros q i Hq Hi. cbn [dpushw]. rewrite Ps. destruct (Nat.ltb_spec i l1).
      + rewrite get_mkT2. unfold zeros. rewrite Sx. unfold fill_with. rewrite flat_tab; [reflexivity|]. rewrite numel_cons. fold l1. nia.
      + now rewrite get_tab2 by lia.
  Qed.

  Lemma tadd_tab2_ b n (d d' : D) : tadd_ (tab2 b n d) (tab2 b n d') = Ok (tab2 b n (fun q i => nadd (d q i) (d' q i))).
  Proof. exact (tadd_present true b n (fun q i _ => d q i) (fun q i _ => d' q i)). Qed.

  (** one step of the loop over the layers *)
  Lemma dforth_step m s s1 st b x y dW off blk acc A : typed m s s1 -> 0 < b -> wf x -> shape x = b :: s -> coh m st x ->
    (forall st, coh m st x -> dforth_ok m s s1 st b x (Some y)) ->
    (n_params m <> 0 -> rep true b (dmat dW) m off blk) -> accd acc (numel s) b A ->
    exists st1 acc1,
      (match acc with VNone => (st, Ok VNone) | a => jmjTp m st x (Some y) a Input true true true end) = (st1, Ok acc1) /\
      coh m st1 x /\
      let A1 : D := fun q i => nadd (dpush m x A q i) (dpushw m x (fun q p => dW q (off + p)) q i) in
      let out := if match acc with VNone => n_params m =? 0 | _ => false end then VNone else VT (tab2 b (numel s1) A1) in
      (n_params m = 0 -> acc1 = out) /\
      (n_params m <> 0 -> exists st2 r2 acc2, jmjTp m st1 x (Some y) blk Weight true true true = (st2, r2) /\
        (new <- r2 ;; new <- to_opt new ;; acc <- to_opt acc1 ;; accumulate acc new) = Ok acc2 /\ of_opt acc2 = out).
  Proof.
    intros Ty Hb Wx Sx C IH Rb Ha. destruct (proj1 dpush_zero m s s1 Ty b x Hb Wx Sx) as [Z1 Z2].
    destruct Ha as [[-> A0]| ->].
    - exists st, VNone. split; [reflexivity|]. split; auto. cbn zeta. split.
      + intros ->. reflexivity.
      + intros Hn. destruct (IH st C) as [_ I2]. specialize (I2 Hn dW off blk (Rb Hn)).
        destruct (jmjTp m st x (Some y) blk Weight true true true) as [st2 r2]. cbn [snd] in I2. subst r2.
        exists st2. do 2 eexists. split; [reflexivity|]. split; [reflexivity|]. cbn [of_opt].
        destruct (Nat.eqb_spec (n_params m) 0); [contradiction|]. f_equal. apply tab2_ext. intros q i Hq Hi.
        rewrite (dpush_agree m s s1 b x A zero Ty Hb Wx Sx A0 q i Hq Hi), Z1 by auto. unfold zero. ring.
    - destruct (IH st C) as [I1 _]. specialize (I1 (tab2 b (numel s) A) (wf_tab _ _) eq_refl).
      pose proof (proj1 (jmjTp_keeps BF BPF) m s s1 Ty (Some y) (VT (tab2 b (numel s) A)) Input true true true b st x Hb Wx Sx C) as C1.
      cbn beta in C1. destruct (jmjTp m st x (Some y) (VT _) Input true true true) as [st1 r1]. cbn [fst snd] in *. subst r1.
      pose proof (dpush_agree m s s1 b x _ _ Ty Hb Wx Sx (dvec_tab b (numel s) A)) as Ag.
      exists st1. eexists. split; [reflexivity|]. split; auto. cbn zeta. split.
      + intros Z. f_equal. apply tab2_ext. intros q i Hq Hi. rewrite Ag, (Z2 Z _ q i Hq Hi) by auto. unfold zero. ring.
      + intros Hn. destruct (IH st1 C1) as [_ I2]. specialize (I2 Hn dW off blk (Rb Hn)).
        destruct (jmjTp m st1 x (Some y) blk Weight true true true) as [st2 r2]. cbn [fst snd] in *. subst r2.
        exists st2. do 2 eexists. split; [reflexivity|]. cbn [bind to_opt accumulate]. rewrite tadd_tab2_. cbn [some bind].
        split; [reflexivity|]. cbn [of_opt]. f_equal. apply tab2_ext. intros q i Hq Hi. now rewrite Ag.
  Qed.

  Lemma tree_dforth :
    (forall m s s', typed m s s' -> fwdable m -> forall b st x y, 0 < b -> wf x -> shape x = b :: s ->
       fwd m x = Ok y -> coh m st x -> dforth_ok m s s' st b x (Some y)) /\
    (forall ms s s', typed_seq ms s s' -> seq_dforth_P ms s s').
  Proof.
    apply typed_both.
    - intros l s s' Ty Fb b st x y Hb Wx Sx Fy _. rewrite fwd_Leaf in Fy. now apply (dforth_leaf l s s' b x y); auto.
    - intros cfg s s' Ty [].
    - intros ms s s' Ty IH Fb b st x y Hb Wx Sx Fy C. change (fwdable_seq ms) in Fb. now apply dforth_seq_body.
    - intros ms c c' r Ty IH Fb b st x y Hb Wx Sx Fy C. change (fwdable_seq ms) in Fb.
      apply dforth_skip; auto. intros. now apply dforth_seq_body.
    - intros s Hs Fb b fma k fm ks x Hb Wx Sx C Sk. split.
      + intros M WM SM. cbn [seq_jmjTp_in snd seq_dpush]. do 2 f_equal. now apply (tab2_eq n0).
      + intros dW off bs acc A _ Ha. cbn [seq_jmjTp_w snd seq_dpushw]. destruct Ha as [[-> _]| ->]; reflexivity.
    - intros m ms s s1 s2 Tm IHm Ts IHs [Fm Fs] b fma k fm ks x Hb Wx Sx C Sk.
      destruct C as (st & ks' & fm' & y & -> & -> & Fy & Cm & Cs). destruct (coh_seq_head _ _ _ _ _ Cs) as [r0 ->].
      destruct (typed_fwd_y BF BPF _ _ _ b x y Tm Hb Wx Sx Fy) as [Wy Sy]. destruct (fmaps_ok fma (x :: y :: r0) k x y r0 Sk) as [Ef Sk'].
      assert (IH : forall st, coh m st x -> dforth_ok m s s1 st b x (Some y)) by (intros; now apply IHm).
      destruct (IHs Fs b fma (S k) (y :: r0) ks' y Hb Wy Sy Cs Sk') as [S1 S2].
      assert (Etd : match ms with [] => true | _ => true end = true) by now destruct ms.
      split.
      + intros M WM SM. cbn [seq_jmjTp_in kid_split]. rewrite Ef. rewrite Etd. replace (if k =? 0 then true else true) with true by now destruct (k =? 0).
        destruct (IH st Cm) as [I1 _]. specialize (I1 M WM SM).
        destruct (jmjTp m st x (Some y) (VT M) Input true true true) as [k1 r1]. cbn [snd] in I1. subst r1.
        specialize (S1 (tab2 b (numel s1) (dpush m x (dvec M))) (wf_tab _ _) eq_refl).
        destruct (seq_jmjTp_in jmjTp true fma ms ks' (S k)) as [ks2 r2]. cbn [snd] in *. rewrite S1. do 2 f_equal.
        apply tab2_ext. intros q i Hq Hi. cbn [seq_dpush]. rewrite Fy.
        apply (proj1 (proj2 dpush_ext ms s1 s2 Ts b y Hb Wy Sy)); auto. apply dvec_tab.
      + intros dW off bs acc A Rs Ha. cbn [seq_jmjTp_w kid_split]. rewrite Ef, Etd.
        set (A1 := fun q i => nadd (dpush m x A q i) (dpushw m x (fun q p => dW q (off + p)) q i)).
        set (acc2 := if match acc with VNone => n_params m =? 0 | _ => false end then VNone else VT (tab2 b (numel s1) A1)).
        assert (Fin : forall bs', reps true b (dmat dW) ms (off + n_params m) bs' ->
           snd (seq_jmjTp_w jmjTp true fma ms ks' (S k) bs' acc2 true true true) =
           Ok (if match acc with VNone => seq_np (m :: ms) =? 0 | _ => false end then VNone else
             VT (tab2 b (numel s2) (seq_dpushw dpushw (m :: ms) x (fun q p => dW q (off + p)) A)))).
        { intros bs' Rs'.
          assert (Ha2 : accd acc2 (numel s1) b A1).
          { unfold acc2. destruct acc; [|right; reflexivity..].
            destruct (Nat.eqb_spec (n_params m) 0) as [Z|Z]; [|right; reflexivity]. left. split; auto. intros q i Hq Hi. unfold A1.
            destruct (proj1 dpush_zero m s s1 Tm b x Hb Wx Sx) as [Z1 Z2]. rewrite (Z2 Z _ q i Hq Hi).
            destruct Ha as [[_ A0]|]; [|discriminate]. rewrite (dpush_agree m s s1 b x A zero Tm Hb Wx Sx A0 q i Hq Hi), Z1 by auto. unfold zero. ring. }
          rewrite (S2 dW (off + n_params m) bs' acc2 A1 Rs' Ha2). f_equal.
          replace (match acc2 with VNone => seq_np ms =? 0 | _ => false end) with (match acc with VNone => seq_np (m :: ms) =? 0 | _ => false end).
          2:{ unfold acc2. destruct acc; auto. change (seq_np (m :: ms)) with (n_params m + seq_np ms).
              destruct (Nat.eqb_spec (n_params m) 0) as [Z|Z]; [now rewrite Z|]. destruct (Nat.eqb_spec (n_params m + seq_np ms) 0); [lia|reflexivity]. }
          set (cnd := match acc with VNone => _ | _ => _ end). destruct cnd; auto. f_equal. apply tab2_ext. intros q i Hq Hi.
          cbn [seq_dpushw]. rewrite Fy. apply (proj2 (proj2 dpush_ext ms s1 s2 Ts b y Hb Wy Sy)); auto.
          - intros q0 p H0 Hp. now rewrite Nat.add_assoc.
          - intros ? ? _ _. reflexivity. }
        destruct (Nat.eqb_spec (n_params m) 0) as [Z|Z].
        * assert (Rs' : reps true b (dmat dW) ms (off + n_params m) bs).
          { rewrite Z, Nat.add_0_r. inversion Rs; subst; auto. contradiction. }
          destruct (dforth_step m s s1 st b x y dW off VNone acc A Tm Hb Wx Sx Cm IH ltac:(contradiction) Ha) as (st1 & acc1 & E1 & C1 & E2 & _).
          rewrite E1. rewrite (E2 Z). specialize (Fin bs Rs'). unfold acc2, A1 in Fin |- *. cbn zeta in Fin |- *.
          replace (n_params m =? 0) with true by (now rewrite Z).
          match goal with |- snd (match ?z with _ => _ end) = _ => transitivity (snd z); [destruct z; reflexivity|exact Fin] end.
        * inversion Rs as [|? ? ? ? Z' |? ? ? blk bs0 _ Rb Rs']; subst; [contradiction|].
          destruct (dforth_step m s s1 st b x y dW off blk acc A Tm Hb Wx Sx Cm IH (fun _ => Rb) Ha) as (st1 & acc1 & E1 & C1 & _ & E2).
          rewrite E1. cbn [bind]. destruct (E2 Z) as (st2 & r2 & acc2' & E3 & E4 & E5). rewrite E3, E4, E5.
          specialize (Fin bs0 Rs'). unfold acc2, A1 in Fin |- *. cbn zeta in Fin |- *. replace (n_params m =? 0) with false by (now destruct (Nat.eqb_spec (n_params m) 0)). match goal with |- snd (match ?z with _ => _ end) = _ => transitivity (snd z); [destruct z; reflexivity|exact Fin] end.
  Qed.
  Lemma dforth_none m s s' b st x : typed m s s' -> fwdable m -> 0 < b -> wf x -> shape x = b :: s -> dforth_ok m s s' st b x None.
  Proof.
    intros Ty Fb Hb Wx Sx. destruct (fwd_total m s s' b x Ty Hb Wx Sx) as (y & Fy & Wy & Sy').
    pose proof (typed_coh BF BPF m s s' Ty b x st Hb Wx Sx) as C.
    destruct (proj1 tree_dforth m s s' Ty Fb b (fst (forward m st x)) x y Hb Wx Sx Fy C) as [I1 I2].
    destruct m as [l|cfg|h ms|F].
    - inversion Ty; subst. rewrite fwd_Leaf in Fy. now apply (dforth_leaf l s s' b x y); auto.
    - contradiction.
    - assert (Q : forall v w, jmjTp (Seq h ms) st x None v w true true true = jmjTp (Seq h ms) (fst (forward (Seq h ms) st x)) x (Some y) v w true true true).
      { intros v w. cbn [jmjTp db_ok negb orb andb ensure]. rewrite (forward_eta (Seq h ms) st x), Fy at 1. cbn [fst snd]. reflexivity. }
      split; intros; rewrite Q; auto.
    - remember (Skip F) as S eqn:ES.
      assert (Q : forall v w, jmjTp S st x None v w true true true = jmjTp S (fst (forward S st x)) x (Some y) v w true true true).
      { intros v w. subst S. cbn [jmjTp db_ok negb orb andb]. unfold ensure. rewrite (forward_eta (Skip F) st x) at 1. rewrite Fy. reflexivity. }
      split; intros; rewrite Q; auto.
  Qed.
End Diag.
