(** vector-Jacobian products of a module tree. *)
From Coq Require Import String Ascii List Arith ZArith Lia Bool.
From Verif Require Import Scalar Sums Tensor TensorLemmas EinsumLemmas Conv Abstract Simple LinearLayer ConvLayer PoolLayer
  Module Spec OpLemmas ReshapeLemmas Jac LeafSpec TreeBase.
Import ListNotations.
Local Open Scope nat_scope.
Local Open Scope list_scope.

Section Vjp.
  Context {K} `{CR : CRing K}.
  Add Ring Kring : (cring : ring_theory n0 n1 nadd nmul nsub nopp (@eq K)).
  Notation gt := (get (@n0 K _)).
  Notation T := (tensor K).

  Definition pool_vjp_spec cfg (s s' : list nat) : Prop := forall b (x y : T) i v, 0 < b -> wf x -> shape x = b :: s ->
    max_pool2d cfg x = Ok (y, i) -> wf v -> shape v = [b; numel s'] ->
    pool_vjp (Some i) x y v = Ok (vJ b (numel s') (numel s) (JX (MaxPool cfg) x) v).

  Variable BF : @base_fwd K _.
  Variable BPF : @base_pool_fwd K _.
  Variable BL : forall l s s', leaf_typed l s s' -> @leaf_vjp_spec K _ l s s'.
  Variable BP : forall cfg s s', pool_typed cfg s s' -> pool_vjp_spec cfg s s'.

  Definition vjp_ok (m : module K) (s s' : list nat) (st : st K) b (x : T) val v : Prop :=
    vjp m st x val v Input = (st, Ok (Some (vJ b (numel s') (numel s) (JX m x) v))) /\
    vjp m st x val v Weight = (st, Ok (wopt (n_params m) (vJ b (numel s') (n_params m) (JW m x) v))).

  Lemma numel0_ok (x : T) b s : 0 < b -> shape x = b :: s -> numel0 x = Ok (numel s).
  Proof. intros Hb S. unfold numel0. rewrite S. destruct (Nat.eqb_spec b 0); [lia|reflexivity]. Qed.
  Lemma slice_from_any (t : T) l : 1 < rank t -> exists u, slice_from n0 1 l t = Ok u.
  Proof.
    intros R. unfold slice_from, slice. destruct (Nat.ltb_spec 1 (rank t)); [|lia]. eauto.
  Qed.

  Lemma tree_vjp_seq_body : forall ms s s',
    (forall b fma k fm ks x v, 0 < b -> wf x -> shape x = b :: s -> coh_seq coh ms ks fm x -> skipn k fma = fm ->
      wf v -> shape v = [b; numel s'] ->
      seq_vjp_in vjp true fma ms ks k v = (ks, Ok (vJ b (numel s') (numel s) (seq_JX JX ms x) v)) /\
      exists vs v', seq_vjp_w vjp true fma ms ks k v = (ks, Ok (vs, v')) /\
        cats2 b (seq_np ms) (fun q p => bsum (numel s') (fun i => nmul (gt v [q; i]) (seq_JW JW ms x q i p))) vs /\
        (vs = [] <-> seq_np ms = 0) /\
        (k <> 0 -> v' = vJ b (numel s') (numel s) (seq_JX JX ms x) v)) ->
    forall b st x val v, 0 < b -> wf x -> shape x = b :: s -> coh (Seq true ms) st x -> wf v -> shape v = [b; numel s'] ->
      vjp_ok (Seq true ms) s s' st b x (Some val) v.
  Proof.
    intros ms s s' IH b st x val v Hb Wx Sx [_ C] Wv Sv.
    destruct (IH b (st_fm st) 0 (st_fm st) (st_kids st) x v Hb Wx Sx C eq_refl Wv Sv) as (E & vs & v' & Ew & Cs & N & _).
    split; cbn [vjp wrt_ok ensure].
    - rewrite E. cbn. now rewrite st_eta.
    - rewrite Ew. cbn. rewrite st_eta. f_equal. unfold wopt. fold (seq_np ms).
      destruct (Nat.eqb_spec (seq_np ms) 0) as [Z|Z].
      + apply N in Z. now rewrite Z.
      + assert (Nv : vs <> []) by (intros ->; apply Z, N; auto).
        pose proof (cats2_cat _ _ _ _ Nv Cs) as Ec. destruct vs as [|t vs]; [congruence|]. now rewrite Ec.
  Qed.

  Lemma tree_vjp :
    (forall m s s', typed m s s' -> forall b st x y v, 0 < b -> wf x -> shape x = b :: s ->
       fwd m x = Ok y -> coh m st x -> wf v -> shape v = [b; numel s'] -> vjp_ok m s s' st b x (Some y) v) /\
    (forall ms s s', typed_seq ms s s' -> forall b fma k fm ks x v, 0 < b -> wf x -> shape x = b :: s ->
       coh_seq coh ms ks fm x -> skipn k fma = fm -> wf v -> shape v = [b; numel s'] ->
      seq_vjp_in vjp true fma ms ks k v = (ks, Ok (vJ b (numel s') (numel s) (seq_JX JX ms x) v)) /\
      exists vs v', seq_vjp_w vjp true fma ms ks k v = (ks, Ok (vs, v')) /\
        cats2 b (seq_np ms) (fun q p => bsum (numel s') (fun i => nmul (gt v [q; i]) (seq_JW JW ms x q i p))) vs /\
        (vs = [] <-> seq_np ms = 0) /\
        (k <> 0 -> v' = vJ b (numel s') (numel s) (seq_JX JX ms x) v)).
  Proof.
    apply typed_both.
    - intros l s s' Ty b st x y v Hb Wx Sx Fy _ Wv Sv. rewrite fwd_Leaf in Fy.
      destruct (BL l s s' Ty b x y (Some y) Hb Wx Sx Fy (or_intror eq_refl) v Wv Sv) as [E1 E2].
      split; cbn [vjp JX JW n_params]; congruence.
    - intros cfg s s' Ty b st x y v Hb Wx Sx Fy (y' & i & E & Ei) Wv Sv. rewrite fwd_Pool, E in Fy.
      injection Fy as ->. split; [|reflexivity]. cbn [vjp ensure]. rewrite Ei. cbn [bind].
      now rewrite (BP cfg s s' Ty b x y i v Hb Wx Sx E Wv Sv).
    - intros ms s s' Ty IH b st x y v Hb Wx Sx Fy C Wv Sv. now apply tree_vjp_seq_body.
    - intros ms c c' r Ty IH b st x y v Hb Wx Sx Fy (Ck & C) Wv Sv.
      destruct (typed_pos_s _ _ _ Ty) as [P1 P2].
      destruct (typed_fwd_y BF BPF _ _ _ b x y (ty_skip ms c c' r Ty) Hb Wx Sx Fy) as [Wy Sy].
      assert (N' : numel (c + c' :: r) = numel (c :: r) + numel (c' :: r)) by (numels; ring).
      set (l1 := numel (c :: r)) in *. set (l2 := numel (c' :: r)) in *. unfold vjp_ok. rewrite N' in Sv |- *.
      set (vt := tab2 b l2 (fun q j => gt v [q; l1 + j])).
      assert (Evt : slice_from n0 1 l1 v = Ok vt).
      { unfold slice_from. replace (dim v 1) with (l1 + l2) by (unfold dim; now rewrite Sv).
        now rewrite slice1_2 with (b := b) (n := l1 + l2). }
      destruct (slice_from_any y l1) as [vy Ey]; [unfold rank; rewrite Sy; cbn; lia|].
      assert (I : vjp_ok (Seq true ms) (c :: r) (c' :: r) (st_kid st) b x (Some vy) vt).
      { apply tree_vjp_seq_body; auto. apply wf_tab. }
      assert (Est : set_kid st (st_kid st) = st). { unfold set_kid. rewrite <- Ck. apply st_eta. }
      destruct I as [I1 I2]. fold l1 l2 in I1, I2. cbn [vjp] in I1, I2.
      assert (Ps : per x = l1) by (unfold per; now rewrite Sx).
      split; cbn [vjp]; rewrite (numel0_ok x b (c :: r) Hb Sx); fold l1; cbn [bind val_tail]; rewrite Ey; cbn [some bind];
        rewrite Evt; cbn [bind].
      + rewrite I1, Est. cbn [bind need]. f_equal.
        change l1 with (0 + l1) at 1. rewrite slice1_2 with (b := b) (n := l1 + l2) by (auto; lia). cbn [bind].
        unfold tadd. rewrite bop_same by reflexivity. cbn [some bind shape tab2 tab]. do 2 f_equal.
        apply tab_ext. intros idx V. didx idx V.
        match goal with |- context [gt _ [?q; ?j]] => rename q into q0, j into j0 end.
        rewrite get_tab2, bsum_app by auto. unfold vJ. rewrite get_tab2 by auto. f_equal.
        * cbn [nth]. rewrite Nat.add_0_l. rewrite (bsum_ext l1 _ (fun i => nmul (gt v [q0; i]) (delta i j0))).
          -- now rewrite bsum_delta_r.
          -- intros i Hi. cbn [JX]. rewrite Ps. destruct (Nat.ltb_spec i l1); [reflexivity|lia].
        * apply bsum_ext. intros i Hi. unfold vt. rewrite get_tab2 by auto. cbn [JX]. rewrite Ps.
          destruct (Nat.ltb_spec (l1 + i) l1); [lia|]. replace (l1 + i - l1) with i by lia. reflexivity.
      + rewrite I2, Est. cbn [bind n_params JW]. f_equal. f_equal. unfold wopt.
        destruct (Nat.eqb _ 0); auto. f_equal. apply tab2_ext. intros q p Hq Hp. rewrite bsum_app.
        rewrite (bsum_0 l1).
        2:{ intros i Hi. rewrite Ps. destruct (Nat.ltb_spec i l1); [ring|lia]. }
        match goal with |- ?a = nadd n0 ?b => transitivity b; [|ring] end.
        apply bsum_ext. intros i Hi. unfold vt. rewrite get_tab2 by auto. rewrite Ps.
        destruct (Nat.ltb_spec (l1 + i) l1); [lia|]. now replace (l1 + i - l1) with i by lia.
    - intros s Hs b fma k fm ks x v Hb Wx Sx [-> _] _ Wv Sv. split.
      + cbn. now rewrite vJ_delta.
      + exists [], v. split; [reflexivity|]. split; [apply cats2_nil|]. split; [cbn; tauto|].
        intros _. cbn. now rewrite vJ_delta.
    - intros m ms s s1 s2 Tm IHm Ts IHs b fma k fm ks x v Hb Wx Sx (st & ks' & fm' & y & -> & -> & Fy & Cm & Cs) Sk Wv Sv.
      destruct (typed_fwd_y BF BPF _ _ _ b x y Tm Hb Wx Sx Fy) as [Wy Sy].
      destruct (skipn_nth _ _ _ _ Sk) as [_ Sk']. destruct (coh_seq_head _ _ _ _ _ Cs) as [r ->].
      destruct (IHs b fma (S k) (y :: r) ks' y v Hb Wy Sy Cs Sk' Wv Sv) as (E & vs & v' & Ew & Ccat & N & Ev).
      specialize (Ev (Nat.neq_succ_0 k)).
      set (v1 := vJ b (numel s2) (numel s1) (seq_JX JX ms y) v) in *.
      destruct (IHm b st x y v1 Hb Wx Sx Fy Cm) as [I1 I2]; [apply wf_tab|reflexivity|].
      assert (Py : per y = numel s1) by (unfold per; now rewrite Sy).
      assert (Comp : vJ b (numel s1) (numel s) (JX m x) v1 = vJ b (numel s2) (numel s) (seq_JX JX (m :: ms) x) v).
      { unfold v1. rewrite vJ_vJ. apply vJ_Jext. intros q i j Hq Hi Hj. cbn [seq_JX]. rewrite Fy, Py. reflexivity. }
      split.
      + cbn [seq_vjp_in kid_split]. rewrite E. cbn [bind]. rewrite (fmap2_ok fma k x y r Sk). cbn [bind].
        rewrite I1. cbn [bind need]. now rewrite Comp.
      + cbn [seq_vjp_w kid_split]. rewrite Ew. cbn [bind]. rewrite (fmap2_ok fma k x y r Sk). cbn [bind].
        rewrite Ev, I2.
        assert (CW : forall q p, q < b -> p < n_params m ->
           bsum (numel s1) (fun i => nmul (gt v1 [q; i]) (JW m x q i p)) =
           bsum (numel s2) (fun i => nmul (gt v [q; i]) (seq_JW JW (m :: ms) x q i p))).
        { intros q p Hq Hp. pose proof (vJ_vJ b (numel s2) (numel s1) (n_params m) (seq_JX JX ms y) (JW m x) v) as Q.
          fold v1 in Q. apply (f_equal (fun t => gt t [q; p])) in Q. unfold vJ in Q at 1 2. rewrite !get_tab2 in Q by auto.
          rewrite Q. apply bsum_ext. intros i Hi. cbn [seq_JW]. rewrite Fy, Py.
          destruct (Nat.ltb_spec p (n_params m)); [reflexivity|lia]. }
        exists (match wopt (n_params m) (vJ b (numel s1) (n_params m) (JW m x) v1) with Some t => t :: vs | None => vs end),
               (if Nat.eqb k 0 then v1 else vJ b (numel s1) (numel s) (JX m x) v1).
        split.
        { destruct (Nat.eqb k 0); [reflexivity|]. rewrite I1. reflexivity. }
        split; [|split].
        * unfold wopt. destruct (Nat.eqb_spec (n_params m) 0) as [Z|Z].
          -- unfold seq_np. cbn [fold_right]. rewrite Z. cbn [Nat.add]. fold (seq_np ms). revert Ccat. apply cats2_ext.
             intros q j Hq Hj. apply bsum_ext. intros i Hi. cbn [seq_JW]. rewrite Fy, Z. cbn [Nat.ltb Nat.leb].
             now rewrite Nat.sub_0_r.
          -- unfold seq_np. cbn [fold_right]. fold (seq_np ms).
             eapply cats2_ext; [|apply cats2_cons with (w := n_params m); [reflexivity|exact Ccat]].
             intros q j Hq Hj. cbn beta. destruct (Nat.ltb_spec j (n_params m)).
             ++ unfold vJ at 1. rewrite get_tab2 by auto. now apply CW.
             ++ apply bsum_ext. intros i Hi. cbn [seq_JW]. rewrite Fy.
                destruct (Nat.ltb_spec j (n_params m)); [lia|reflexivity].
        * unfold wopt. unfold seq_np in *. cbn [fold_right]. destruct (Nat.eqb_spec (n_params m) 0) as [Z|Z].
          -- rewrite Z. exact N.
          -- split; [discriminate|lia].
        * intros Hk. destruct (Nat.eqb_spec k 0); [lia|]. exact Comp.
  Qed.

  (** val absent: the layer runs its forward pass first *)
  Lemma tree_vjp_none : forall m s s', typed m s s' -> forall b st x y v, 0 < b -> wf x -> shape x = b :: s ->
       fwd m x = Ok y -> wf v -> shape v = [b; numel s'] ->
    snd (vjp m st x None v Input) = Ok (Some (vJ b (numel s') (numel s) (JX m x) v)) /\
    snd (vjp m st x None v Weight) = Ok (wopt (n_params m) (vJ b (numel s') (n_params m) (JW m x) v)).
  Proof.
    intros m s s' Ty b st x y v Hb Wx Sx Fy Wv Sv.
    pose proof (typed_coh BF BPF m s s' Ty b x st Hb Wx Sx) as C.
    destruct (proj1 tree_vjp m s s' Ty b (fst (forward m st x)) x y v Hb Wx Sx Fy C Wv Sv) as [I1 I2].
    inversion Ty; subst.
    - rewrite fwd_Leaf in Fy. cbn [vjp snd].
      destruct (BL l s s' H b x y None Hb Wx Sx Fy (or_introl eq_refl) v Wv Sv) as [E1 E2]. auto.
    - cbn [vjp] in *. cbn [ensure snd] in *. rewrite (forward_eta (MaxPool cfg) st x), Fy.
      split; [|reflexivity]. cbn [ensure] in I1. now injection I1.
    - cbn [vjp wrt_ok ensure] in *. rewrite (forward_eta (Seq true ms) st x), Fy.
      split; [now rewrite I1|now rewrite I2].
    - cbn [vjp] in *. rewrite (numel0_ok x b _ Hb Sx) in *. cbn [val_tail bind] in *.
      destruct (typed_fwd_y BF BPF _ _ _ b x y Ty Hb Wx Sx Fy) as [Wy Sy].
      destruct (slice_from_any y (numel (c :: r))) as [vy Ey]; [unfold rank; rewrite Sy; cbn; lia|].
      rewrite Ey in *. cbn [some bind] in *.
      destruct (slice_from n0 1 (numel (c :: r)) v) as [vt|]; [cbn [bind] in *|discriminate].
      cbn [vjp wrt_ok ensure] in *.
      rewrite fwd_Skip in Fy. destruct (fwd (Seq true ms) x) as [z|] eqn:Fz; [|discriminate].
      rewrite (forward_eta (Seq true ms) (st_kid st) x), Fz.
      assert (Ek : st_kid (fst (forward (Skip (Seq true ms)) st x)) = fst (forward (Seq true ms) (st_kid st) x)).
      { cbn [forward]. now destruct seq_forward as [[? ?] ?]. }
      rewrite Ek in *.
      destruct (seq_vjp_in _ _ _ _ _ _ _) as [k1 r1]. destruct (seq_vjp_w _ _ _ _ _ _ _) as [k2 r2].
      cbn [snd]. split; [now injection I1|now injection I2].
  Qed.
End Vjp.
