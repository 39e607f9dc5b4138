(** J^T M J of a module tree (jTmjp without diag_backprop). *)
From Coq Require Import String Ascii List Arith ZArith Lia Bool.
From Verif Require Import Scalar Sums Tensor TensorLemmas EinsumLemmas Conv Abstract Simple LinearLayer ConvLayer PoolLayer
  Module Spec OpLemmas ReshapeLemmas Jac LeafSpec TreeBase TreeVjp TreeMjp.
Import ListNotations.
Local Open Scope nat_scope.
Local Open Scope list_scope.

Section Pull.
  Context {K} `{CR : CRing K}.
  Add Ring Kring : (cring : ring_theory n0 n1 nadd nmul nsub nopp (@eq K)).
  Notation gt := (get (@n0 K _)).
  Notation T := (tensor K).

  Lemma wval_none td b R (m : module K) : forall off, wval td b R m off = VNone <-> n_params m = 0.
  Proof.
    revert m. refine (module_ind2 (fun m => forall off, wval td b R m off = VNone <-> n_params m = 0) (fun _ => True) _ _ _ _ I (fun _ _ _ _ => I)).
    - intros l off. cbn. destruct (Nat.eqb_spec (leaf_n_params l) 0); split; auto; try discriminate; lia.
    - intros; cbn; tauto.
    - intros h ms _ off. cbn. destruct Nat.eqb eqn:E; [apply Nat.eqb_eq in E|apply Nat.eqb_neq in E]; split; auto; destruct td; try discriminate; lia.
    - intros F IH off. apply IH.
  Qed.
  Lemma wval_ext td b R R' : forall (m : module K) off off',
    (forall q i j, q < b -> i < n_params m -> j < n_params m -> R q (off + i) (off + j) = R' q (off' + i) (off' + j)) ->
    wval td b R m off = wval td b R' m off'.
  Proof.
    refine (module_ind2 (fun m => forall off off',
    (forall q i j, q < b -> i < n_params m -> j < n_params m -> R q (off + i) (off + j) = R' q (off' + i) (off' + j)) ->
    wval td b R m off = wval td b R' m off') (fun ms => forall off off',
    (forall q i j, q < b -> i < seq_np ms -> j < seq_np ms -> R q (off + i) (off + j) = R' q (off' + i) (off' + j)) ->
    wvals (wval td b R) ms off = wvals (wval td b R') ms off') _ _ _ _ _ _).
    - intros l off off' E. cbn. destruct Nat.eqb; auto. f_equal. now apply present_ext.
    - reflexivity.
    - intros h ms IH off off' E. cbn [wval]. destruct Nat.eqb; auto. destruct td.
      + f_equal. now apply present_ext.
      + f_equal. now apply IH.
    - intros F IH off off' E. cbn. now apply IH.
    - reflexivity.
    - intros m ms IHm IHs off off' E. cbn [wvals]. unfold seq_np in E; cbn [fold_right] in E; fold (seq_np ms) in E.
      rewrite (IHm off off') by (intros; apply E; lia).
      rewrite (IHs (off + n_params m) (off' + n_params m)); auto.
      intros q i j Hq Hi Hj. rewrite <- !Nat.add_assoc. apply E; lia.
  Qed.
  Lemma wvals_ext td b R R' : forall (ms : list (module K)) off off',
    (forall q i j, q < b -> i < seq_np ms -> j < seq_np ms -> R q (off + i) (off + j) = R' q (off' + i) (off' + j)) ->
    wvals (wval td b R) ms off = wvals (wval td b R') ms off'.
  Proof.
    induction ms as [|m ms IHs]; auto. intros off off' E. cbn [wvals]. unfold seq_np in E; cbn [fold_right] in E; fold (seq_np ms) in E.
    rewrite (wval_ext td b R R' m off off') by (intros; apply E; lia).
    rewrite (IHs (off + n_params m) (off' + n_params m)); auto.
    intros q i j Hq Hi Hj. rewrite <- !Nat.add_assoc. apply E; lia.
  Qed.
  Lemma wval_td b R : forall (m : module K) off,
    wval true b R m off = if n_params m =? 0 then VNone else VT (block true b (n_params m) off R).
  Proof.
    refine (module_ind2 (fun m => forall off, wval true b R m off = if n_params m =? 0 then VNone else VT (block true b (n_params m) off R))
      (fun _ => True) _ _ _ _ I (fun _ _ _ _ => I)); try reflexivity.
    intros F IH off. apply IH.
  Qed.
  Lemma wvals_nil td b R : forall (ms : list (module K)) off, wvals (wval td b R) ms off = [] <-> seq_np ms = 0.
  Proof.
    induction ms as [|m ms IH]; intros off; [cbn; tauto|]. cbn [wvals]. unfold seq_np; cbn [fold_right]; fold (seq_np ms).
    pose proof (wval_none td b R m off) as N. destruct (wval td b R m off) eqn:E.
    - rewrite IH. assert (n_params m = 0) by now apply N. lia.
    - split; [discriminate|]. intros Z. assert (@VT K t = VNone) by (apply N; lia). discriminate.
    - split; [discriminate|]. intros Z. assert (@VL K l = VNone) by (apply N; lia). discriminate.
  Qed.
  Lemma wvals_td b R : forall (ms : list (module K)) off, exists ts,
    mapM to_tensor (wvals (wval true b R) ms off) = Ok ts /\
    cats2 b (seq_np ms) (fun q j => R q (off + j) (off + j)) ts /\ (ts = [] <-> seq_np ms = 0).
  Proof.
    induction ms as [|m ms IH]; intros off.
    - exists []. split; [reflexivity|]. split; [apply cats2_nil|cbn; tauto].
    - destruct (IH (off + n_params m)) as (ts & E & C & N). cbn [wvals]. rewrite wval_td.
      unfold seq_np; cbn [fold_right]; fold (seq_np ms). destruct (Nat.eqb_spec (n_params m) 0) as [Z|Z].
      + rewrite Z in *. rewrite Nat.add_0_r in *. exists ts. auto.
      + cbn [mapM to_tensor]. rewrite E. cbn [bind]. eexists. split; [reflexivity|]. split; [|split; [discriminate|lia]].
        eapply cats2_ext; [|apply cats2_cons with (w := n_params m); [reflexivity|exact C]].
        intros q j Hq Hj. cbn beta. destruct (Nat.ltb_spec j (n_params m)).
        * unfold block, present. now rewrite get_tab2.
        * now replace (off + n_params m + (j - n_params m)) with (off + j) by lia.
  Qed.

  Lemma tadd_tab2 b n f g : tadd (@tab2 K b n f) (tab2 b n g) = Ok (tab2 b n (fun q j => nadd (f q j) (g q j))).
  Proof.
    unfold tadd. rewrite bop_same by reflexivity. f_equal. apply tab_ext. intros idx V. didx idx V. now rewrite !get_tab2.
  Qed.
  Lemma tadd_tab3 b n m f g : tadd (@tab3 K b n m f) (tab3 b n m g) = Ok (tab3 b n m (fun q i j => nadd (f q i j) (g q i j))).
  Proof.
    unfold tadd. rewrite bop_same by reflexivity. f_equal. apply tab_ext. intros idx V. didx idx V. now rewrite !get_tab3.
  Qed.
  Lemma diag_tab3 b n f : einsum "bii->bi"%string [@tab3 K b n n f] = Ok (tab2 b n (fun q j => f q j j)).
  Proof.
    erewrite es_bii_to_bi by reflexivity. f_equal. apply tab2_ext. intros. now rewrite get_tab3.
  Qed.

  (** J = [I; JF] *)
  Lemma pull_at_skip l1 l2 JF (M : nat -> nat -> nat -> K) q j l : j < l1 -> l < l1 ->
    pull_at (l1 + l2) (fun q i j => if i <? l1 then delta i j else JF q (i - l1) j) M q j l =
    nadd (nadd (nadd (pull_at l2 JF (fun q i k => M q (l1 + i) (l1 + k)) q j l)
      (bsum l2 (fun k => nmul (M q j (l1 + k)) (JF q k l)))) (bsum l2 (fun i => nmul (M q (l1 + i) l) (JF q i j)))) (M q j l).
  Proof.
    intros Hj Hl. unfold pull_at. rewrite bsum_app.
    assert (In : forall i, bsum (l1 + l2) (fun k => nmul (nmul (if i <? l1 then delta i j else JF q (i - l1) j) (M q i k))
               (if k <? l1 then delta k l else JF q (k - l1) l)) =
             nmul (if i <? l1 then delta i j else JF q (i - l1) j) (nadd (M q i l) (bsum l2 (fun k => nmul (M q i (l1 + k)) (JF q k l))))).
    { intros i. rewrite bsum_app.
      rewrite (bsum_ext l1 _ (fun k => nmul (nmul (if i <? l1 then delta i j else JF q (i - l1) j) (M q i k)) (delta k l))).
      2:{ intros k Hk. destruct (Nat.ltb_spec k l1); [reflexivity|lia]. }
      rewrite bsum_delta_r by auto.
      rewrite (bsum_ext l2 _ (fun k => nmul (if i <? l1 then delta i j else JF q (i - l1) j) (nmul (M q i (l1 + k)) (JF q k l)))).
      2:{ intros k Hk. destruct (Nat.ltb_spec (l1 + k) l1); [lia|]. replace (l1 + k - l1) with k by lia. ring. }
      rewrite bsum_mul_l. ring. }
    rewrite (bsum_ext l1 _ (fun i => nmul (nadd (M q i l) (bsum l2 (fun k => nmul (M q i (l1 + k)) (JF q k l)))) (delta i j))).
    2:{ intros i Hi. rewrite In. destruct (Nat.ltb_spec i l1); [ring|lia]. }
    rewrite bsum_delta_r by auto.
    match goal with |- nadd _ (bsum l2 ?f) = _ => rewrite (bsum_ext l2 f (fun i => nadd (nmul (M q (l1 + i) l) (JF q i j))
        (bsum l2 (fun k => nmul (nmul (JF q i j) (M q (l1 + i) (l1 + k))) (JF q k l))))) end.
    2:{ intros i Hi. rewrite In. destruct (Nat.ltb_spec (l1 + i) l1); [lia|]. replace (l1 + i - l1) with i by lia.
        rewrite (bsum_ext l2 (fun k => nmul (nmul _ _) _) (fun k => nmul (JF q i j) (nmul (M q (l1 + i) (l1 + k)) (JF q k l)))) by (intros; ring).
        rewrite bsum_mul_l. ring. }
    rewrite bsum_add. ring.
  Qed.

  Definition pool_pull_spec cfg (s s' : list nat) : Prop := forall b (x y : T) i, 0 < b -> wf x -> shape x = b :: s ->
    max_pool2d cfg x = Ok (y, i) ->
    forall fd td db M, flags_ok fd td db -> wf M -> shape M = metric_shape fd b (numel s') ->
      pool_jTmjp (Some i) x y (Some M) Input fd td db =
        Ok (Some (pull b (numel s') (numel s) (JX (MaxPool cfg) x) fd td M)) /\
      pool_jTmjp (Some i) x y (Some M) Weight fd td db = Ok None.

  Variable BF : @base_fwd K _.
  Variable BPF : @base_pool_fwd K _.
  Variable BM : forall l s s', leaf_typed l s s' -> @leaf_mjp_spec K _ l s s'.
  Variable BPM : forall cfg s s', pool_typed cfg s s' -> pool_mjp_spec cfg s s'.
  Variable BL : forall l s s', leaf_typed l s s' -> leaf_sym l -> @leaf_pull_spec K _ l s s'.
  Variable BP : forall cfg s s', pool_typed cfg s s' -> pool_pull_spec cfg s s'.

  Definition pull_ok (m : module K) (s s' : list nat) (st : st K) b (x : T) val fd td M : Prop :=
    jTmjp m st x val (VT M) Input fd td false = (st, Ok (VT (pull b (numel s') (numel s) (JX m x) fd td M))) /\
    jTmjp m st x val (VT M) Weight fd td false =
      (st, Ok (wval td b (pull_at (numel s') (JW m x) (metric fd M)) m 0)).

  (** the metric propagated to the input of a list of modules *)
  Definition spull (ms : list (module K)) b m n J (fd td : bool) (M : T) : T :=
    match ms with [] => M | _ => pull b m n J fd td M end.

  Definition seq_pull_P (ms : list (module K)) s s' : Prop :=
    all_sym_seq ms -> nonempty_seq ms ->
    forall b fma k fm ks x fd td M, 0 < b -> wf x -> shape x = b :: s ->
       coh_seq coh ms ks fm x -> skipn k fma = fm -> wf M -> shape M = metric_shape fd b (numel s') ->
      seq_jTmjp_in jTmjp true fma ms ks k (VT M) fd td false =
        (ks, Ok (VT (spull ms b (numel s') (numel s) (seq_JX JX ms x) fd (if k =? 0 then td else false) M))) /\
      exists v', seq_jTmjp_w jTmjp true fma ms ks k (VT M) fd td false =
        (ks, Ok (wvals (wval td b (pull_at (numel s') (seq_JW JW ms x) (metric fd M))) ms 0, v')) /\
        (k <> 0 -> v' = VT (spull ms b (numel s') (numel s) (seq_JX JX ms x) fd false M)).

  Lemma tree_pull_seq_body ms s s' : seq_pull_P ms s s' -> ms <> [] -> all_sym_seq ms -> nonempty_seq ms ->
    forall b st x val fd td M, 0 < b -> wf x -> shape x = b :: s -> coh (Seq true ms) st x ->
      wf M -> shape M = metric_shape fd b (numel s') ->
      pull_ok (Seq true ms) s s' st b x (Some val) fd td M.
  Proof.
    intros IH Ne Sy Nn b st x val fd td M Hb Wx Sx [_ C] Wv Sv.
    destruct (IH Sy Nn b (st_fm st) 0 (st_fm st) (st_kids st) x fd td M Hb Wx Sx C eq_refl Wv Sv) as (E & v' & Ew & _).
    split; cbn [jTmjp ensure bind db_ok negb orb].
    - rewrite E. cbn [bind]. rewrite st_eta. destruct ms; [congruence|reflexivity].
    - rewrite Ew. cbn [bind]. rewrite st_eta. f_equal. set (R := pull_at _ _ _). cbn [wval JW]. fold R.
      change (n_params (Seq true ms)) with (seq_np ms).
      pose proof (wvals_nil td b R ms 0) as N. destruct (Nat.eqb_spec (seq_np ms) 0) as [Z|Z].
      + rewrite (proj2 N Z). reflexivity.
      + destruct (wvals (wval td b R) ms 0) as [|v vs] eqn:Ev; [tauto|]. destruct td; [|reflexivity].
        rewrite <- Ev. destruct (wvals_td b R ms 0) as (ts & E1 & E2 & E3). rewrite E1. cbn [bind].
        assert (Nt : ts <> []) by tauto. rewrite (cats2_cat _ _ _ _ Nt E2). reflexivity.
  Qed.
  Lemma sym_go (ms : list (module K)) : (fix go l := match l with [] => True | m :: l => all_sym m /\ go l end) ms = all_sym_seq ms.
  Proof. induction ms; cbn; auto. now rewrite IHms. Qed.
  Lemma ne_go (ms : list (module K)) : (fix go l := match l with [] => True | m :: l => nonempty m /\ go l end) ms = nonempty_seq ms.
  Proof. induction ms; cbn; auto. now rewrite IHms. Qed.
  Lemma pull_shift b n td (R : nat -> nat -> nat -> K) : block td b n 0 R = present td b n R.
  Proof. now apply present_ext. Qed.

  Lemma tree_pull_skip ms c c' r b st x y fd td M : typed_seq ms (c :: r) (c' :: r) ->
    0 < b -> wf x -> shape x = b :: c :: r -> fwd (Skip (Seq true ms)) x = Ok y -> coh (Skip (Seq true ms)) st x ->
    wf M -> shape M = metric_shape fd b (numel (c + c' :: r)) ->
    (forall val M, wf M -> shape M = metric_shape fd b (numel (c' :: r)) ->
      pull_ok (Seq true ms) (c :: r) (c' :: r) (st_kid st) b x (Some val) fd td M) ->
    pull_ok (Skip (Seq true ms)) (c :: r) (c + c' :: r) st b x (Some y) fd td M.
  Proof.
    intros Ty Hb Wx Sx Fy (Ck & C) Wv Sv I.
    destruct (typed_pos_s _ _ _ Ty) as [P1 P2].
    destruct (typed_fwd_y BF BPF _ _ _ b x y (ty_skip ms c c' r Ty) Hb Wx Sx Fy) as [Wy Sy].
    assert (N' : numel (c + c' :: r) = numel (c :: r) + numel (c' :: r)) by (numels; ring).
    set (l1 := numel (c :: r)) in *. set (l2 := numel (c' :: r)) in *. unfold pull_ok. rewrite N' in Sv |- *.
    destruct (slice_from_any y l1) as [vy Ey]; [unfold rank; rewrite Sy; cbn; lia|].
    assert (Est : set_kid st (st_kid st) = st). { unfold set_kid. rewrite <- Ck. apply st_eta. }
    assert (Ps : per x = l1) by (unfold per; now rewrite Sx).
    assert (IM : forall rr M, 0 < rr -> wf M -> shape M = [b; rr; l2] ->
      mjp (Seq true ms) (st_kid st) x (Some vy) (Some M) Input = (st_kid st, Ok (Some (MJ b rr l2 l1 (JX (Seq true ms) x) M)))).
    { intros rr M0 Hr W S. eapply (tree_mjp_seq_body ms (c :: r) (c' :: r) (proj2 (tree_mjp BF BPF BM BPM) ms _ _ Ty)); eauto. }
    set (sub := if fd then tab2 b l2 (fun q j => gt M [q; l1 + j])
                else tab3 b l2 l2 (fun q i j => gt M [q; l1 + i; l1 + j])).
    assert (Esub : (sub <- slice_from n0 1 l1 M ;; if fd then Ok sub else slice_from n0 2 l1 sub) = Ok sub).
    { unfold slice_from. replace (dim M 1) with (l1 + l2) by (unfold dim; destruct fd; now rewrite Sv). destruct fd; cbn [metric_shape] in Sv.
      - now rewrite slice1_2 with (b := b) (n := l1 + l2).
      - rewrite slice1_3 with (b := b) (n := l1 + l2) (p := l1 + l2) by auto. cbn [bind].
        change (dim (tab3 b l2 (l1 + l2) _) 2) with (l1 + l2). rewrite slice2_3 with (b := b) (n := l2) (p := l1 + l2) by auto.
        unfold sub. f_equal. apply tab3_ext. intros. now rewrite get_tab3 by lia. }
    assert (Wsub : wf sub) by (unfold sub; destruct fd; apply wf_tab).
    assert (Ssub : shape sub = metric_shape fd b l2) by (unfold sub; destruct fd; reflexivity).
    destruct (I vy sub Wsub Ssub) as [I1 I2]. fold l1 l2 in I1, I2.
    assert (Msub : forall q i k, q < b -> i < l2 -> k < l2 -> metric fd sub q i k = metric fd M q (l1 + i) (l1 + k)).
    { intros q i k Hq Hi Hk. unfold sub, metric. destruct fd.
      - rewrite get_tab2 by auto. destruct (Nat.eqb_spec i k), (Nat.eqb_spec (l1 + i) (l1 + k)); auto; lia.
      - now rewrite get_tab3 by auto. }
    assert (JXs : forall td, pull b (l1 + l2) l1 (JX (Skip (Seq true ms)) x) fd td M = present td b l1 (fun q j l =>
      nadd (nadd (nadd (pull_at l2 (JX (Seq true ms) x) (metric fd sub) q j l)
      (bsum l2 (fun k => nmul (metric fd M q j (l1 + k)) (JX (Seq true ms) x q k l))))
      (bsum l2 (fun i => nmul (metric fd M q (l1 + i) l) (JX (Seq true ms) x q i j)))) (metric fd M q j l))).
    { intros td0. apply present_ext. intros q j l Hq Hj Hl. cbn [JX]. rewrite Ps. rewrite pull_at_skip by auto.
      do 3 f_equal. apply pull_at_ext; auto. intros. symmetry. now apply Msub. }
    remember (Seq true ms) as F eqn:EF.
    assert (Step : forall w, jTmjp (Skip F) st x (Some y) (VT M) w fd td false =
      let '(k, r0) := jTmjp F (st_kid st) x (Some vy) (VT sub) w fd td false in
      let s := set_kid st k in
      match r0 with
      | Raise e => (s, Raise e)
      | Ok j =>
                  match w with
                  | Input =>
                      if fd then
                        (s, a <- slice n0 1 0 l1 M ;;
                            a <- (if td then Ok a else diag_embed a) ;;
                            j <- to_tensor j ;; r <- tadd j a ;; Ok (VT r))
                      else
                        match (a <- slice n0 1 0 l1 M ;; slice_from n0 2 l1 a) with
                        | Raise e => (s, Raise e)
                        | Ok m12 =>
                            let '(k, r) := mjp F (st_kid s) x (Some vy) (Some m12) w in
                            let s := set_kid s k in
                            match (mj <- r ;; mj <- need mj ;;
                                   a <- slice_from n0 1 l1 M ;; a <- slice n0 2 0 l1 a ;;
                                   a <- transpose12 n0 a ;; Ok (mj, a)) with
                            | Raise e => (s, Raise e)
                            | Ok (mj, m21T) =>
                                let '(k, r) := mjp F (st_kid s) x (Some vy) (Some m21T) w in
                                let s := set_kid s k in
                                (s, jm <- r ;; jm <- need jm ;; jm <- transpose12 n0 jm ;;
                                    j <- to_tensor j ;;
                                    m11 <- slice n0 1 0 l1 M ;; m11 <- slice n0 2 0 l1 m11 ;;
                                    if td then
                                      mj <- einsum "bii->bi" [mj] ;; jm <- einsum "bii->bi" [jm] ;;
                                      m11 <- einsum "bii->bi" [m11] ;;
                                      r <- tadd j mj ;; r <- tadd r jm ;; r <- tadd r m11 ;; Ok (VT r)
                                    else
                                      r <- tadd j mj ;; r <- tadd r jm ;; r <- tadd r m11 ;; Ok (VT r))
                            end
                        end
                  | Weight => (s, Ok j)
                  | Other => (s, Ok VNone)
                  end
      end).
    { intros w. cbn [jTmjp db_ok negb orb ensure bind to_tensor]. rewrite (numel0_ok x b (c :: r) Hb Sx). fold l1. cbn [bind].
      rewrite Ey. cbn [bind].
      destruct (slice_from n0 1 l1 M) as [t|] eqn:Es1; cbn [bind] in Esub |- *; [|discriminate]. rewrite Esub. cbn [bind].
      rewrite Es1. cbn [bind]. reflexivity. }
    split; rewrite Step; clear Step.
    - rewrite I1. cbn [to_tensor bind]. rewrite !Est. rewrite JXs. destruct fd; cbn [metric_shape] in Sv.
      + f_equal. change l1 with (0 + l1) at 1. rewrite slice1_2 with (b := b) (n := l1 + l2) by (auto; lia). cbn [bind].
        assert (Z1 : forall q j k, j < l1 -> metric true M q j (l1 + k) = n0).
        { intros q j k Hj. unfold metric. destruct (Nat.eqb_spec j (l1 + k)); [lia|reflexivity]. }
        assert (Z2 : forall q j k, j < l1 -> metric true M q (l1 + k) j = n0).
        { intros q j k Hj. unfold metric. destruct (Nat.eqb_spec (l1 + k) j); [lia|reflexivity]. }
        destruct td; unfold pull, present.
        * cbn [bind]. rewrite tadd_tab2. cbn [bind]. do 2 f_equal.
          apply tab2_ext. intros q j Hq Hj. cbn beta. cbn [Nat.add].
          rewrite !bsum_0 by (intros; rewrite ?Z1, ?Z2 by auto; ring). unfold metric at 3. rewrite Nat.eqb_refl. ring.
        * rewrite diag_embed2 with (b := b) (n := l1) by reflexivity. cbn [bind].
          rewrite tadd_tab3. cbn [bind]. do 2 f_equal.
          apply tab3_ext. intros q j l Hq Hj Hl. cbn beta. 
          rewrite get_tab2 by auto. cbn [Nat.add].
          rewrite !bsum_0 by (intros; rewrite ?Z1, ?Z2 by auto; ring). unfold metric at 3. ring.
      + (* full matrix *)
        assert (S11 : slice n0 1 0 l1 M = Ok (tab3 b l1 (l1 + l2) (fun i j k => gt M [i; j; k]))).
        { change l1 with (0 + l1) at 1. rewrite slice1_3 with (b := b) (n := l1 + l2) (p := l1 + l2) by (auto; lia). reflexivity. }
        rewrite S11. cbn [bind].
        assert (S12 : slice_from n0 2 l1 (tab3 b l1 (l1 + l2) (fun i j k => gt M [i; j; k])) =
          Ok (tab3 b l1 l2 (fun i j k => gt M [i; j; l1 + k]))).
        { unfold slice_from. change (dim (tab3 b l1 (l1 + l2) _) 2) with (l1 + l2).
          rewrite slice2_3 with (b := b) (n := l1) (p := l1 + l2) by auto. f_equal. apply tab3_ext. intros. now rewrite get_tab3 by lia. }
        rewrite S12. rewrite (IM l1) by (auto; apply wf_tab). rewrite !Est. cbn [bind need].
        assert (S21 : (a <- slice_from n0 1 l1 M ;; a <- slice n0 2 0 l1 a ;; transpose12 n0 a) =
          Ok (tab3 b l1 l2 (fun i j k => gt M [i; l1 + k; j]))).
        { unfold slice_from. replace (dim M 1) with (l1 + l2) by (unfold dim; now rewrite Sv).
          rewrite slice1_3 with (b := b) (n := l1 + l2) (p := l1 + l2) by auto. cbn [bind].
          rewrite (slice2_3 n0 _ b l2 (l1 + l2) 0 l1) by (auto; lia). cbn [bind].
          rewrite transpose12_ok with (b := b) (n := l2) (m := l1) by reflexivity. f_equal. apply tab3_ext. intros.
          rewrite !get_tab3 by lia. reflexivity. }
        destruct (slice_from n0 1 l1 M) as [t1|]; [|discriminate]. cbn [bind] in S21 |- *.
        destruct (slice n0 2 0 l1 t1) as [t2|]; [|discriminate]. cbn [bind] in S21 |- *.
        rewrite S21. cbn [bind]. rewrite (IM l1) by (auto; apply wf_tab). rewrite !Est. cbn [bind need]. f_equal.
        rewrite transpose12_ok with (b := b) (n := l1) (m := l1) by reflexivity. cbn [bind].
        rewrite (slice2_3 n0 _ b l1 (l1 + l2) 0 l1) by (auto; lia). cbn [bind].
        unfold pull, MJ, present.
        destruct td.
        * rewrite !diag_tab3. cbn [bind]. rewrite tadd_tab2. cbn [bind]. rewrite tadd_tab2. cbn [bind]. rewrite tadd_tab2. cbn [bind].
          do 2 f_equal. apply tab2_ext. intros q j Hq Hj. cbn beta. rewrite !get_tab3 by (auto; lia). cbn [Nat.add metric].
          f_equal. f_equal; [f_equal|]; apply bsum_ext; intros k Hk; now rewrite get_tab3.
        * rewrite tadd_tab3. cbn [bind]. rewrite tadd_tab3. cbn [bind]. rewrite tadd_tab3. cbn [bind].
          do 2 f_equal. apply tab3_ext. intros q j l Hq Hj Hl. cbn beta. rewrite !get_tab3 by (auto; lia). cbn [Nat.add metric].
          f_equal. f_equal; [f_equal|]; apply bsum_ext; intros k Hk; now rewrite get_tab3.
    - rewrite I2. cbn [bind]. rewrite Est. f_equal. f_equal. cbn [wval]. apply wval_ext. intros q i j Hq Hi Hj.
      cbn [Nat.add JW]. rewrite Ps. unfold pull_at. rewrite bsum_app.
      rewrite (bsum_0 l1). 2:{ intros a Ha. apply bsum_0. intros. destruct (Nat.ltb_spec a l1); [ring|lia]. }
      match goal with |- ?a = nadd n0 ?b => transitivity b; [|ring] end.
      apply bsum_ext. intros a Ha. rewrite bsum_app.
      rewrite (bsum_0 l1). 2:{ intros a' Ha'. destruct (Nat.ltb_spec a' l1); [ring|lia]. }
      match goal with |- ?a = nadd n0 ?b => transitivity b; [|ring] end.
      apply bsum_ext. intros a' Ha'. rewrite Msub by auto.
      destruct (Nat.ltb_spec (l1 + a) l1); [lia|]. destruct (Nat.ltb_spec (l1 + a') l1); [lia|].
      now replace (l1 + a - l1) with a by lia; replace (l1 + a' - l1) with a' by lia.
  Qed.

  Lemma wval_leaf td b n (l : leaf K) R : leaf_n_params l = n ->
    of_opt (wopt n (present td b n R)) = wval td b R (Leaf l) 0.
  Proof. intros <-. unfold wopt. cbn [wval]. destruct Nat.eqb; auto. Qed.

  Lemma tree_pull :
    (forall m s s', typed m s s' -> all_sym m -> nonempty m -> forall b st x y fd td M, 0 < b -> wf x -> shape x = b :: s ->
       fwd m x = Ok y -> coh m st x -> wf M -> shape M = metric_shape fd b (numel s') -> pull_ok m s s' st b x (Some y) fd td M) /\
    (forall ms s s', typed_seq ms s s' -> seq_pull_P ms s s').
  Proof.
    apply typed_both.
    - intros l s s' Ty Sy _ b st x y fd td M Hb Wx Sx Fy _ Wv Sv. rewrite fwd_Leaf in Fy.
      assert (Fl : flags_ok fd td false) by discriminate.
      destruct (BL l s s' Ty Sy b x y (Some y) Hb Wx Sx Fy (or_intror eq_refl) fd td false M Fl Wv Sv) as [E1 E2].
      split; cbn [jTmjp JX JW to_opt bind].
      + rewrite E1. reflexivity.
      + rewrite E2. cbn [bind]. f_equal. f_equal. apply (wval_leaf td b _ l). reflexivity.
    - intros cfg s s' Ty Sy _ b st x y fd td M Hb Wx Sx Fy (y' & i & E & Ei) Wv Sv. rewrite fwd_Pool, E in Fy.
      injection Fy as ->. assert (Fl : flags_ok fd td false) by discriminate.
      destruct (BP cfg s s' Ty b x y i Hb Wx Sx E fd td false M Fl Wv Sv) as [E1 E2].
      split; cbn [jTmjp ensure bind to_opt]; rewrite Ei; [rewrite E1|rewrite E2]; reflexivity.
    - intros ms s s' Ty IH Sy [Ne Nn] b st x y fd td M Hb Wx Sx Fy C Wv Sv. cbn [all_sym] in Sy.
      rewrite sym_go in Sy. rewrite ne_go in Nn. now apply tree_pull_seq_body.
    - intros ms c c' r Ty IH Sy [Ne Nn] b st x y fd td M Hb Wx Sx Fy C Wv Sv. cbn [all_sym] in Sy.
      rewrite sym_go in Sy. rewrite ne_go in Nn. apply tree_pull_skip; auto. destruct C as [Ck C].
      intros val M0 W S. now apply tree_pull_seq_body.
    - intros s Hs _ _ b fma k fm ks x fd td M Hb Wx Sx [-> _] _ Wv Sv. split; [reflexivity|].
      exists (VT M). split; reflexivity.
    - intros m ms s s1 s2 Tm IHm Ts IHs [Sm Ss] [Nm Ns] b fma k fm ks x fd td M Hb Wx Sx
        (st & ks' & fm' & y & -> & -> & Fy & Cm & Cs) Sk Wv Sv.
      destruct (typed_fwd_y BF BPF _ _ _ b x y Tm Hb Wx Sx Fy) as [Wy Sy].
      destruct (skipn_nth _ _ _ _ Sk) as [_ Sk']. destruct (coh_seq_head _ _ _ _ _ Cs) as [r ->].
      destruct (IHs Ss Ns b fma (S k) (y :: r) ks' y fd td M Hb Wy Sy Cs Sk' Wv Sv) as (E & v' & Ew & Ev).
      specialize (Ev (Nat.neq_succ_0 k)). cbn [Nat.eqb] in E. subst v'.
      set (fd' := match ms with [] => fd | _ => false end).
      set (v1 := spull ms b (numel s2) (numel s1) (seq_JX JX ms y) fd false M) in *.
      assert (L : typed_seq ms s1 s2) by auto.
      assert (W1 : wf v1). { unfold v1, spull. destruct ms; auto. apply wf_present. }
      assert (S1 : shape v1 = metric_shape fd' b (numel s1)).
      { unfold v1, spull, fd'. destruct ms; [inversion L; subst; auto|]. apply shape_present. }
      assert (M1 : forall q i k, q < b -> i < numel s1 -> k < numel s1 ->
                metric fd' v1 q i k = pull_at (numel s2) (seq_JX JX ms y) (metric fd M) q i k).
      { intros q i k0 Hq Hi Hk0. unfold v1, spull, fd'. destruct ms.
        - inversion L; subst. cbn [seq_JX]. now rewrite pull_at_delta.
        - unfold pull. now rewrite metric_present. }
      assert (Py : per y = numel s1) by (unfold per; now rewrite Sy).
      assert (Comp : forall td, pull b (numel s1) (numel s) (JX m x) fd' td v1 =
         pull b (numel s2) (numel s) (seq_JX JX (m :: ms) x) fd td M).
      { intros td0. apply present_ext. intros q j l Hq Hj Hl.
        rewrite (pull_at_ext _ _ (JX m x) _ (pull_at (numel s2) (seq_JX JX ms y) (metric fd M))) by auto.
        rewrite pull_at_comp. apply pull_at_ext; auto; intros; cbn [seq_JX]; now rewrite Fy, Py. }
      assert (CompW : forall q i j, q < b -> i < n_params m -> j < n_params m ->
         pull_at (numel s1) (JW m x) (metric fd' v1) q i j = pull_at (numel s2) (seq_JW JW (m :: ms) x) (metric fd M) q i j).
      { intros q i j Hq Hi Hj.
        rewrite (pull_at_ext _ _ (JW m x) _ (pull_at (numel s2) (seq_JX JX ms y) (metric fd M))) by auto.
        rewrite pull_at_comp. apply pull_at_ext; auto; intros; cbn [seq_JW]; rewrite Fy, Py.
        - destruct (Nat.ltb_spec i (n_params m)); [reflexivity|lia].
        - destruct (Nat.ltb_spec j (n_params m)); [reflexivity|lia]. }
      split.
      + cbn [seq_jTmjp_in kid_split]. rewrite E. cbn [bind]. rewrite (fmap2_ok fma k x y r Sk). cbn [bind].
        destruct (IHm Sm Nm b st x y fd' (if k =? 0 then td else false) v1 Hb Wx Sx Fy Cm W1 S1) as [I1 _].
        fold fd'. rewrite I1. cbn [spull]. now rewrite Comp.
      + cbn [seq_jTmjp_w kid_split]. rewrite Ew. cbn [bind]. rewrite (fmap2_ok fma k x y r Sk). cbn [bind]. fold fd'.
        destruct (IHm Sm Nm b st x y fd' td v1 Hb Wx Sx Fy Cm W1 S1) as [_ I2]. rewrite I2.
        exists (if k =? 0 then VT v1 else VT (pull b (numel s1) (numel s) (JX m x) fd' false v1)). split.
        * assert (Ev : match wval td b (pull_at (numel s1) (JW m x) (metric fd' v1)) m 0 with
                  | VNone => wvals (wval td b (pull_at (numel s2) (seq_JW JW ms y) (metric fd M))) ms 0
                  | VT _ as v | VL _ as v => v :: wvals (wval td b (pull_at (numel s2) (seq_JW JW ms y) (metric fd M))) ms 0
                  end = wvals (wval td b (pull_at (numel s2) (seq_JW JW (m :: ms) x) (metric fd M))) (m :: ms) 0).
          { cbn [wvals].
            rewrite (wval_ext td b (pull_at (numel s1) (JW m x) (metric fd' v1)) (pull_at (numel s2) (seq_JW JW (m :: ms) x) (metric fd M)) m 0 0)
              by (intros; cbn [Nat.add]; auto).
            rewrite (wvals_ext td b (pull_at (numel s2) (seq_JW JW ms y) (metric fd M)) (pull_at (numel s2) (seq_JW JW (m :: ms) x) (metric fd M)) ms 0 (0 + n_params m)).
            2:{ intros q i j Hq Hi Hj. cbn [Nat.add]. unfold pull_at. apply bsum_ext; intros a Ha; apply bsum_ext; intros c Hc.
                cbn [seq_JW]; rewrite Fy.
                destruct (Nat.ltb_spec (n_params m + i) (n_params m)); [lia|].
                destruct (Nat.ltb_spec (n_params m + j) (n_params m)); [lia|].
                now replace (n_params m + i - n_params m) with i by lia; replace (n_params m + j - n_params m) with j by lia. }
            reflexivity. }
          rewrite <- Ev. destruct (k =? 0); [destruct wval; reflexivity|].
          destruct (IHm Sm Nm b st x y fd' false v1 Hb Wx Sx Fy Cm W1 S1) as [I1 _]. rewrite I1. cbn [bind].
          destruct wval; reflexivity.
        * intros Hk. destruct (Nat.eqb_spec k 0); [lia|]. cbn [spull]. now rewrite Comp.
  Qed.

  (** val absent *)
  Lemma tree_pull_none m s s' : typed m s s' -> all_sym m -> nonempty m -> forall b st x y fd td M, 0 < b -> wf x ->
       shape x = b :: s -> fwd m x = Ok y -> wf M -> shape M = metric_shape fd b (numel s') ->
    snd (jTmjp m st x None (VT M) Input fd td false) = Ok (VT (pull b (numel s') (numel s) (JX m x) fd td M)) /\
    snd (jTmjp m st x None (VT M) Weight fd td false) = Ok (wval td b (pull_at (numel s') (JW m x) (metric fd M)) m 0).
  Proof.
    intros Ty Sy Ne b st x y fd td M Hb Wx Sx Fy Wv Sv.
    pose proof (typed_coh BF BPF m s s' Ty b x st Hb Wx Sx) as C.
    destruct (proj1 tree_pull m s s' Ty Sy Ne b (fst (forward m st x)) x y fd td M Hb Wx Sx Fy C Wv Sv) as [I1 I2].
    destruct m as [l|cfg|h ms|F].
    - inversion Ty; subst. rewrite fwd_Leaf in Fy.
      assert (Fl : flags_ok fd td false) by discriminate.
      destruct (BL l s s' H0 Sy b x y None Hb Wx Sx Fy (or_introl eq_refl) fd td false M Fl Wv Sv) as [E1 E2].
      cbn [jTmjp snd to_opt bind]. rewrite E1, E2. split; [reflexivity|]. cbn [bind]. f_equal. apply wval_leaf. reflexivity.
    - cbn [jTmjp] in *. unfold ensure in *. rewrite (forward_eta (MaxPool cfg) st x), Fy in *. cbn [fst snd] in *.
      split; [now injection I1|now injection I2].
    - cbn [jTmjp db_ok negb orb] in *. unfold ensure in *. rewrite (forward_eta (Seq h ms) st x), Fy. cbn [bind] in *.
      split; [now rewrite I1|now rewrite I2].
    - remember (Skip F) as S eqn:ES.
      assert (Q : forall w, jTmjp S st x None (VT M) w fd td false = jTmjp S (fst (forward S st x)) x (Some y) (VT M) w fd td false).
      { intros w. subst S. cbn [jTmjp db_ok negb orb]. unfold ensure. rewrite (forward_eta (Skip F) st x) at 1. rewrite Fy. reflexivity. }
      rewrite !Q, I1, I2. split; reflexivity.
  Qed.
End Pull.
