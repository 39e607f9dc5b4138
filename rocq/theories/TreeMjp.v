(** matrix-Jacobian products and the Jacobian of a module tree. *)
From Coq Require Import String Ascii List Arith ZArith Lia Bool.
From Verif Require Import Scalar Sums Tensor TensorLemmas EinsumLemmas Conv Abstract Simple LinearLayer ConvLayer PoolLayer
  Module Spec OpLemmas ReshapeLemmas Jac LeafSpec TreeBase TreeVjp.
Import ListNotations.
Local Open Scope nat_scope.
Local Open Scope list_scope.

Section Mjp.
  Context {K} `{CR : CRing K}.
  Add Ring Kring : (cring : ring_theory n0 n1 nadd nmul nsub nopp (@eq K)).
  Notation gt := (get (@n0 K _)).
  Notation T := (tensor K).

  Definition pool_mjp_spec cfg (s s' : list nat) : Prop := forall b (x y : T) i, 0 < b -> wf x -> shape x = b :: s ->
    max_pool2d cfg x = Ok (y, i) ->
    (forall r M, 0 < r -> wf M -> shape M = [b; r; numel s'] ->
      pool_mjp (Some i) x y M = Ok (MJ b r (numel s') (numel s) (JX (MaxPool cfg) x) M)) /\
    pool_jacobian (Some i) x y = Ok (dense b (numel s') (numel s) (JX (MaxPool cfg) x)).

  Variable BF : @base_fwd K _.
  Variable BPF : @base_pool_fwd K _.
  Variable BL : forall l s s', leaf_typed l s s' -> @leaf_mjp_spec K _ l s s'.
  Variable BP : forall cfg s s', pool_typed cfg s s' -> pool_mjp_spec cfg s s'.

  Definition mjp_ok (m : module K) (s s' : list nat) (st : st K) b (x : T) val r M : Prop :=
    mjp m st x val (Some M) Input = (st, Ok (Some (MJ b r (numel s') (numel s) (JX m x) M))) /\
    mjp m st x val (Some M) Weight = (st, Ok (wopt (n_params m) (MJ b r (numel s') (n_params m) (JW m x) M))).

  Definition seq_mjp_P (ms : list (module K)) s s' : Prop :=
    forall b fma k fm ks x r M, 0 < b -> wf x -> shape x = b :: s ->
       coh_seq coh ms ks fm x -> skipn k fma = fm -> 0 < r -> wf M -> shape M = [b; r; numel s'] ->
      seq_mjp_in mjp true fma ms ks k (Some M) = (ks, Ok (Some (MJ b r (numel s') (numel s) (seq_JX JX ms x) M))) /\
      exists vs v', seq_mjp_w mjp true fma ms ks k (Some M) = (ks, Ok (vs, v')) /\
        cats3 b r (seq_np ms) (fun q a p => bsum (numel s') (fun i => nmul (gt M [q; a; i]) (seq_JW JW ms x q i p))) vs /\
        (vs = [] <-> seq_np ms = 0) /\
        (k <> 0 -> v' = Some (MJ b r (numel s') (numel s) (seq_JX JX ms x) M)).

  Lemma tree_mjp_seq_body ms s s' : seq_mjp_P ms s s' ->
    forall b st x val r M, 0 < b -> wf x -> shape x = b :: s -> coh (Seq true ms) st x ->
      0 < r -> wf M -> shape M = [b; r; numel s'] ->
      mjp_ok (Seq true ms) s s' st b x (Some val) r M.
  Proof.
    intros IH b st x val r M Hb Wx Sx [_ C] Hr Wv Sv.
    destruct (IH b (st_fm st) 0 (st_fm st) (st_kids st) x r M Hb Wx Sx C eq_refl Hr Wv Sv) as (E & vs & v' & Ew & Cs & N & _).
    split; cbn [mjp wrt_ok ensure bind].
    - rewrite E. cbn. now rewrite st_eta.
    - rewrite Ew. cbn. rewrite st_eta. f_equal. unfold wopt. fold (seq_np ms).
      destruct (Nat.eqb_spec (seq_np ms) 0) as [Z|Z].
      + apply N in Z. now rewrite Z.
      + assert (Nv : vs <> []) by (intros ->; apply Z, N; auto).
        pose proof (cats3_cat _ _ _ _ _ Nv Cs) as Ec. destruct vs as [|t vs]; [congruence|]. now rewrite Ec.
  Qed.

  Lemma tree_mjp :
    (forall m s s', typed m s s' -> forall b st x y r M, 0 < b -> wf x -> shape x = b :: s ->
       fwd m x = Ok y -> coh m st x -> 0 < r -> wf M -> shape M = [b; r; numel s'] -> mjp_ok m s s' st b x (Some y) r M) /\
    (forall ms s s', typed_seq ms s s' -> seq_mjp_P ms s s').
  Proof.
    apply typed_both.
    - intros l s s' Ty b st x y r M Hb Wx Sx Fy _ Hr Wv Sv. rewrite fwd_Leaf in Fy.
      destruct (BL l s s' Ty b x y (Some y) Hb Wx Sx Fy (or_intror eq_refl) r M Hr Wv Sv) as [E1 E2].
      split; cbn [mjp JX JW n_params]; congruence.
    - intros cfg s s' Ty b st x y r M Hb Wx Sx Fy (y' & i & E & Ei) Hr Wv Sv. rewrite fwd_Pool, E in Fy.
      injection Fy as ->. split; [|reflexivity]. cbn [mjp ensure]. rewrite Ei. cbn [bind].
      now rewrite (proj1 (BP cfg s s' Ty b x y i Hb Wx Sx E) r M Hr Wv Sv).
    - intros ms s s' Ty IH b st x y r M Hb Wx Sx Fy C Hr Wv Sv. now apply tree_mjp_seq_body.
    - intros ms c c' r Ty IH b st x y rr M Hb Wx Sx Fy (Ck & C) Hr Wv Sv.
      destruct (typed_pos_s _ _ _ Ty) as [P1 P2].
      destruct (typed_fwd_y BF BPF _ _ _ b x y (ty_skip ms c c' r Ty) Hb Wx Sx Fy) as [Wy Sy].
      assert (N' : numel (c + c' :: r) = numel (c :: r) + numel (c' :: r)) by (numels; ring).
      set (l1 := numel (c :: r)) in *. set (l2 := numel (c' :: r)) in *. unfold mjp_ok. rewrite N' in Sv |- *.
      set (vt := tab3 b rr l2 (fun q a j => gt M [q; a; l1 + j])).
      assert (Evt : slice_from n0 2 l1 M = Ok vt).
      { unfold slice_from. replace (dim M 2) with (l1 + l2) by (unfold dim; now rewrite Sv).
        now rewrite slice2_3 with (b := b) (n := rr) (p := l1 + l2). }
      destruct (slice_from_any y l1) as [vy Ey]; [unfold rank; rewrite Sy; cbn; lia|].
      assert (I : mjp_ok (Seq true ms) (c :: r) (c' :: r) (st_kid st) b x (Some vy) rr vt).
      { apply tree_mjp_seq_body; auto. apply wf_tab. }
      assert (Est : set_kid st (st_kid st) = st). { unfold set_kid. rewrite <- Ck. apply st_eta. }
      destruct I as [I1 I2]. fold l1 l2 in I1, I2. cbn [mjp] in I1, I2.
      assert (Ps : per x = l1) by (unfold per; now rewrite Sx).
      split; cbn [mjp]; rewrite (numel0_ok x b (c :: r) Hb Sx); fold l1; cbn [bind val_tail]; rewrite Ey; cbn [some bind];
        rewrite Evt; cbn [bind].
      + rewrite I1, Est. cbn [bind need]. f_equal.
        change l1 with (0 + l1) at 1. rewrite slice2_3 with (b := b) (n := rr) (p := l1 + l2) by (auto; lia). cbn [bind].
        unfold tadd. rewrite bop_same by reflexivity. cbn [some bind shape tab3 tab]. do 2 f_equal.
        apply tab_ext. intros idx V. didx idx V.
        match goal with |- context [gt _ [?q; ?a; ?j]] => rename q into q0, a into a0, j into j0 end.
        rewrite get_tab3, bsum_app by auto. unfold MJ. rewrite get_tab3 by auto. f_equal.
        * cbn [nth]. rewrite Nat.add_0_l. rewrite (bsum_ext l1 _ (fun i => nmul (gt M [q0; a0; i]) (delta i j0))).
          -- now rewrite bsum_delta_r.
          -- intros i Hi. cbn [JX]. rewrite Ps. destruct (Nat.ltb_spec i l1); [reflexivity|lia].
        * apply bsum_ext. intros i Hi. unfold vt. rewrite get_tab3 by auto. cbn [JX]. rewrite Ps.
          destruct (Nat.ltb_spec (l1 + i) l1); [lia|]. replace (l1 + i - l1) with i by lia. reflexivity.
      + rewrite I2, Est. cbn [bind n_params JW]. f_equal. f_equal. unfold wopt.
        destruct (Nat.eqb _ 0); auto. f_equal. apply tab3_ext. intros q a p Hq Ha Hp. rewrite bsum_app.
        rewrite (bsum_0 l1).
        2:{ intros i Hi. rewrite Ps. destruct (Nat.ltb_spec i l1); [ring|lia]. }
        match goal with |- ?a = nadd n0 ?b => transitivity b; [|ring] end.
        apply bsum_ext. intros i Hi. unfold vt. rewrite get_tab3 by auto. rewrite Ps.
        destruct (Nat.ltb_spec (l1 + i) l1); [lia|]. now replace (l1 + i - l1) with i by lia.
    - intros s Hs b fma k fm ks x r M Hb Wx Sx [-> _] _ Hr Wv Sv. split.
      + cbn. now rewrite MJ_delta.
      + exists [], (Some M). split; [reflexivity|]. split; [apply cats3_nil|]. split; [cbn; tauto|].
        intros _. cbn. now rewrite MJ_delta.
    - intros m ms s s1 s2 Tm IHm Ts IHs b fma k fm ks x rr M Hb Wx Sx (st & ks' & fm' & y & -> & -> & Fy & Cm & Cs) Sk Hr Wv Sv.
      destruct (typed_fwd_y BF BPF _ _ _ b x y Tm Hb Wx Sx Fy) as [Wy Sy].
      destruct (skipn_nth _ _ _ _ Sk) as [_ Sk']. destruct (coh_seq_head _ _ _ _ _ Cs) as [r ->].
      destruct (IHs b fma (S k) (y :: r) ks' y rr M Hb Wy Sy Cs Sk' Hr Wv Sv) as (E & vs & v' & Ew & Ccat & N & Ev).
      specialize (Ev (Nat.neq_succ_0 k)).
      set (v1 := MJ b rr (numel s2) (numel s1) (seq_JX JX ms y) M) in *.
      destruct (IHm b st x y rr v1 Hb Wx Sx Fy Cm) as [I1 I2]; [auto|apply wf_tab|reflexivity|].
      assert (Py : per y = numel s1) by (unfold per; now rewrite Sy).
      assert (Comp : MJ b rr (numel s1) (numel s) (JX m x) v1 = MJ b rr (numel s2) (numel s) (seq_JX JX (m :: ms) x) M).
      { unfold v1. rewrite MJ_MJ. apply MJ_Jext. intros q i j Hq Hi Hj. cbn [seq_JX]. rewrite Fy, Py. reflexivity. }
      split.
      + cbn [seq_mjp_in kid_split]. rewrite E. cbn [bind]. rewrite (fmap2_ok fma k x y r Sk). cbn [bind].
        rewrite I1. now rewrite Comp.
      + cbn [seq_mjp_w kid_split]. rewrite Ew. cbn [bind]. rewrite (fmap2_ok fma k x y r Sk). cbn [bind].
        rewrite Ev, I2.
        assert (CW : forall q a p, q < b -> a < rr -> p < n_params m ->
           bsum (numel s1) (fun i => nmul (gt v1 [q; a; i]) (JW m x q i p)) =
           bsum (numel s2) (fun i => nmul (gt M [q; a; i]) (seq_JW JW (m :: ms) x q i p))).
        { intros q a p Hq Ha Hp. pose proof (MJ_MJ b rr (numel s2) (numel s1) (n_params m) (seq_JX JX ms y) (JW m x) M) as Q.
          fold v1 in Q. apply (f_equal (fun t => gt t [q; a; p])) in Q. unfold MJ in Q at 1 2. rewrite !get_tab3 in Q by auto.
          rewrite Q. apply bsum_ext. intros i Hi. cbn [seq_JW]. rewrite Fy, Py.
          destruct (Nat.ltb_spec p (n_params m)); [reflexivity|lia]. }
        exists (match wopt (n_params m) (MJ b rr (numel s1) (n_params m) (JW m x) v1) with Some t => t :: vs | None => vs end),
               (Some (if Nat.eqb k 0 then v1 else MJ b rr (numel s1) (numel s) (JX m x) v1)).
        split.
        { destruct (Nat.eqb k 0); [reflexivity|]. rewrite I1. reflexivity. }
        split; [|split].
        * unfold wopt. destruct (Nat.eqb_spec (n_params m) 0) as [Z|Z].
          -- unfold seq_np. cbn [fold_right]. rewrite Z. cbn [Nat.add]. fold (seq_np ms). revert Ccat. apply cats3_ext.
             intros q a j Hq Ha Hj. apply bsum_ext. intros i Hi. cbn [seq_JW]. rewrite Fy, Z. cbn [Nat.ltb Nat.leb].
             now rewrite Nat.sub_0_r.
          -- unfold seq_np. cbn [fold_right]. fold (seq_np ms).
             eapply cats3_ext; [|apply cats3_cons with (w := n_params m); [reflexivity|exact Ccat]].
             intros q a j Hq Ha Hj. cbn beta. destruct (Nat.ltb_spec j (n_params m)).
             ++ unfold MJ at 1. rewrite get_tab3 by auto. now apply CW.
             ++ apply bsum_ext. intros i Hi. cbn [seq_JW]. rewrite Fy.
                destruct (Nat.ltb_spec j (n_params m)); [lia|reflexivity].
        * unfold wopt. unfold seq_np in *. cbn [fold_right]. destruct (Nat.eqb_spec (n_params m) 0) as [Z|Z].
          -- rewrite Z. exact N.
          -- split; [discriminate|lia].
        * intros Hk. destruct (Nat.eqb_spec k 0); [lia|]. now rewrite Comp.
  Qed.

  (** val absent *)
  Lemma tree_mjp_none : forall m s s', typed m s s' -> forall b st x y r M, 0 < b -> wf x -> shape x = b :: s ->
       fwd m x = Ok y -> 0 < r -> wf M -> shape M = [b; r; numel s'] ->
    snd (mjp m st x None (Some M) Input) = Ok (Some (MJ b r (numel s') (numel s) (JX m x) M)) /\
    snd (mjp m st x None (Some M) Weight) = Ok (wopt (n_params m) (MJ b r (numel s') (n_params m) (JW m x) M)).
  Proof.
    intros m s s' Ty b st x y rr v Hb Wx Sx Fy Hr Wv Sv.
    pose proof (typed_coh BF BPF m s s' Ty b x st Hb Wx Sx) as C.
    destruct (proj1 tree_mjp m s s' Ty b (fst (forward m st x)) x y rr v Hb Wx Sx Fy C Hr Wv Sv) as [I1 I2].
    inversion Ty; subst.
    - rewrite fwd_Leaf in Fy. cbn [mjp snd].
      destruct (BL l s s' H b x y None Hb Wx Sx Fy (or_introl eq_refl) rr v Hr Wv Sv) as [E1 E2]. auto.
    - cbn [mjp] in *. cbn [ensure snd] in *. rewrite (forward_eta (MaxPool cfg) st x), Fy.
      split; [|reflexivity]. cbn [ensure] in I1. now injection I1.
    - cbn [mjp wrt_ok ensure] in *. rewrite (forward_eta (Seq true ms) st x), Fy.
      split; [now rewrite I1|now rewrite I2].
    - cbn [mjp] in *. rewrite (numel0_ok x b _ Hb Sx) in *. cbn [val_tail bind] in *.
      destruct (typed_fwd_y BF BPF _ _ _ b x y Ty Hb Wx Sx Fy) as [Wy Sy].
      destruct (slice_from_any y (numel (c :: r))) as [vy Ey]; [unfold rank; rewrite Sy; cbn; lia|].
      rewrite Ey in *. cbn [some bind] in *.
      destruct (slice_from n0 2 (numel (c :: r)) v) as [vt|]; [cbn [bind] in *|discriminate].
      cbn [mjp wrt_ok ensure bind] in *.
      rewrite fwd_Skip in Fy. destruct (fwd (Seq true ms) x) as [z|] eqn:Fz; [|discriminate].
      rewrite (forward_eta (Seq true ms) (st_kid st) x), Fz. cbn [bind].
      assert (Ek : st_kid (fst (forward (Skip (Seq true ms)) st x)) = fst (forward (Seq true ms) (st_kid st) x)).
      { cbn [forward]. now destruct seq_forward as [[? ?] ?]. }
      rewrite Ek in *.
      destruct (seq_mjp_in _ _ _ _ _ _ _) as [k1 r1]. destruct (seq_mjp_w _ _ _ _ _ _ _) as [k2 r2].
      cbn [snd]. split; [now injection I1|now injection I2].
  Qed.

  (** *** the Jacobian *)
  Lemma MJ_eye b m n J : MJ b m m n J (@eye_repeat K _ b m) = dense b m n J.
  Proof.
    apply tab3_ext. intros q i j Hq Hi Hj.
    rewrite (bsum_ext m _ (fun i0 => nmul (delta i i0) (J q i0 j))).
    - now rewrite bsum_delta_l.
    - intros i0 Hi0. now rewrite get_eye.
  Qed.
  Lemma wf_eye b n : wf (@eye_repeat K _ b n) /\ shape (@eye_repeat K _ b n) = [b; n; n].
  Proof. split; [apply wf_tab|reflexivity]. Qed.

  Variable BJ : forall l s s', leaf_typed l s s' -> @leaf_jac_spec K _ l s s'.

  Lemma tree_jacobian_seq ms s s' : typed_seq ms s s' -> forall b st x y, 0 < b -> wf x -> shape x = b :: s ->
     fwd (Seq true ms) x = Ok y ->
     (coh (Seq true ms) st x ->
      mjp (Seq true ms) st x (Some y) None Input = (st, Ok (Some (dense b (numel s') (numel s) (seq_JX JX ms x)))) /\
      mjp (Seq true ms) st x (Some y) None Weight =
        (st, Ok (wopt (seq_np ms) (dense b (numel s') (seq_np ms) (seq_JW JW ms x))))) /\
     (forall w, mjp (Seq true ms) st x None None w = match w with Other => (st, Raise AssertionError) | _ =>
        mjp (Seq true ms) (fst (forward (Seq true ms) st x)) x (Some y) None w end).
  Proof.
    intros Ty b st x y Hb Wx Sx Fy. split.
    - intros C. destruct (typed_fwd_y BF BPF _ _ _ b x y (ty_seq _ _ _ Ty) Hb Wx Sx Fy) as [Wy Sy].
      destruct (typed_pos_s _ _ _ Ty) as [P1 P2]. destruct (wf_eye b (numel s')) as [We Se].
      destruct (tree_mjp_seq_body ms s s' (proj2 tree_mjp ms s s' Ty) b st x y (numel s') (eye_repeat b (numel s'))
                  Hb Wx Sx C P2 We Se) as [I1 I2].
      rewrite MJ_eye in I1, I2. cbn [mjp wrt_ok ensure bind] in *. rewrite Sy. rewrite I1, I2. split; reflexivity.
    - intros [| |]; cbn [mjp wrt_ok ensure]; auto; rewrite (forward_eta (Seq true ms) st x), Fy; cbn [fst]; reflexivity.
  Qed.

  (** the Jacobian without val, from any state *)
  Lemma tree_jacobian : forall m s s', typed m s s' -> forall b st x y, 0 < b -> wf x -> shape x = b :: s ->
       fwd m x = Ok y ->
    snd (jacobian m st x None Input) = Ok (Some (dense b (numel s') (numel s) (JX m x))) /\
    (match m with Skip F => n_params F <> 0 | _ => True end ->
     snd (jacobian m st x None Weight) = Ok (wopt (n_params m) (dense b (numel s') (n_params m) (JW m x)))).
  Proof.
    intros m s s' Ty b st x y Hb Wx Sx Fy. inversion Ty; subst.
    - cbn [jacobian snd JX JW n_params]. rewrite fwd_Leaf in Fy.
      destruct (BJ l s s' H b x y None Hb Wx Sx Fy (or_introl eq_refl)) as [E1 E2]. auto.
    - cbn [jacobian maxpool_jacobian ensure]. rewrite fwd_Pool in Fy.
      destruct (max_pool2d cfg x) as [[y' i]|] eqn:E; [|discriminate]. injection Fy as ->.
      cbn [forward]. rewrite E. cbn [snd st_idx bind].
      rewrite (proj2 (BP cfg s s' H b x y i Hb Wx Sx E)). split; reflexivity.
    - unfold jacobian. destruct (tree_jacobian_seq ms s s' H b st x y Hb Wx Sx Fy) as [_ E]. rewrite !E.
      destruct (tree_jacobian_seq ms s s' H b (fst (forward (Seq true ms) st x)) x y Hb Wx Sx Fy) as [I _].
      destruct I as [I1 I2]. { eapply typed_coh; eauto. } rewrite I1, I2. split; reflexivity.
    - cbn [jacobian]. unfold skip_jacobian.
      pose proof Fy as Fy0. rewrite fwd_Skip in Fy. destruct (fwd (Seq true ms) x) as [z|] eqn:Fz; [|discriminate].
      destruct (tree_jacobian_seq ms _ _ H b (st_kid st) x z Hb Wx Sx Fz) as [_ E]. rewrite !E.
      destruct (tree_jacobian_seq ms _ _ H b (fst (forward (Seq true ms) (st_kid st) x)) x z Hb Wx Sx Fz) as [I _].
      destruct I as [I1 I2]. { eapply typed_coh; eauto. constructor; eauto. } rewrite I1, I2.
      rewrite (numel0_ok x b _ Hb Sx). unfold size. rewrite Sx. cbn [nth_error bind].
      assert (Ens : forall st, snd (ensure (Skip (Seq true ms)) st x None) = Ok y).
      { intros. cbn [ensure]. rewrite forward_pure. congruence. }
      assert (N' : numel (c + c' :: r) = numel (c :: r) + numel (c' :: r)) by (numels; ring).
      set (l1 := numel (c :: r)) in *. set (l2 := numel (c' :: r)) in *. rewrite N'.
      assert (Ps : per x = l1) by (unfold per; now rewrite Sx).
      set (st1 := set_kid _ _). specialize (Ens st1). destruct (ensure _ st1 x None) as [st2 r2].
      cbn [snd] in Ens. subst r2. cbn [bind snd]. split.
      + assert (Er : reshape [b; l1] (@ones K _ (b :: c :: r)) = Ok (@ones K _ [b; l1])).
        { rewrite reshape_ok by (cbn [shape ones fill_with tab]; unfold l1; numels; ring). f_equal.
          unfold ones, fill_with, tab. f_equal. replace (numel (b :: c :: r)) with (numel [b; l1]) by (unfold l1; numels; ring).
          reflexivity. }
        rewrite Er. cbn [bind]. rewrite diag_embed2 with (b := b) (n := l1) by reflexivity. cbn [bind need].
        rewrite cat1_3 with (b := b) (n := l1) (m := l2) (p := l1) by reflexivity. cbn [some bind]. do 2 f_equal.
        apply tab3_ext. intros q i j Hq Hi Hj. cbn [JX]. rewrite Ps.
        destruct (Nat.ltb_spec i l1).
        * rewrite get_tab3 by auto. unfold delta. destruct (Nat.eqb i j); auto.
          unfold ones, fill_with. rewrite get_tab; cbn; auto.
        * unfold dense. rewrite get_tab3 by (auto; lia). reflexivity.
      + cbn [n_params]. intros Z. unfold wopt. fold (seq_np ms) in *.
        destruct (Nat.eqb_spec (seq_np ms) 0); [lia|]. cbn [need bind].
        rewrite cat1_3 with (b := b) (n := l1) (m := l2) (p := seq_np ms) by reflexivity. cbn [some bind]. do 2 f_equal.
        apply tab3_ext. intros q i j Hq Hi Hj. cbn [JW]. rewrite Ps.
        destruct (Nat.ltb_spec i l1).
        * unfold zeros, fill_with. rewrite get_tab; cbn; auto.
        * unfold dense. rewrite get_tab3 by (auto; lia). reflexivity.
  Qed.
End Mjp.
