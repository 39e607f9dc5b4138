(** Jacobian-vector products that return, return the product (no assumption on which layers occur). *)
From Coq Require Import String Ascii List Arith ZArith Lia Bool.
From Verif Require Import Scalar Sums Tensor TensorLemmas EinsumLemmas Conv Abstract Simple LinearLayer ConvLayer PoolLayer
  Module Spec OpLemmas ReshapeLemmas Jac LeafSpec TreeBase TreeVjp TreeMjp TreeJvp.
Import ListNotations.
Local Open Scope nat_scope.
Local Open Scope list_scope.

Section Jvp.
  Context {K} `{CR : CRing K}.
  Add Ring Kring : (cring : ring_theory n0 n1 nadd nmul nsub nopp (@eq K)).
  Notation gt := (get (@n0 K _)).
  Notation T := (tensor K).

  Variable BF : @base_fwd K _.
  Variable BPF : @base_pool_fwd K _.
  Variable BL : forall l s s', leaf_typed l s s' -> leaf_fwdable l -> @leaf_jvp_spec K _ l s s'.

  Definition seq_jvp_S (ms : list (module K)) s s' : Prop :=
    forall b ks fm x, 0 < b -> wf x -> shape x = b :: s ->
    (forall v t, wf v -> shape v = [b; numel s] -> snd (seq_jvp_in jvp true ms ks x fm v) = Ok t ->
       t = Jv b (numel s') (numel s) (seq_JX JX ms x) v) /\
    (forall v P p acc t, wf v -> shape v = [b; P] -> p + seq_np ms <= P -> acc_ok acc b (numel s) ->
       snd (seq_jvp_w jvp true ms ks x fm v p acc) = Ok t ->
       t = accres acc (seq_np ms) (pushv b (numel s') (numel s) (seq_np ms) (seq_JX JX ms x) (seq_JW JW ms x) acc v p)).
  Definition jvp_snd (m : module K) s s' (st : st K) b x val : Prop :=
    (forall v t, wf v -> shape v = [b; numel s] -> snd (jvp m st x val v Input) = Ok t ->
      t = Some (Jv b (numel s') (numel s) (JX m x) v)) /\
    (forall v t, wf v -> shape v = [b; n_params m] -> snd (jvp m st x val v Weight) = Ok t ->
      t = wopt (n_params m) (Jv b (numel s') (n_params m) (JW m x) v)).

  Lemma sound_jvp_seq_body ms s s' : seq_jvp_S ms s s' -> forall b st x val, 0 < b -> wf x -> shape x = b :: s ->
    jvp_snd (Seq true ms) s s' st b x val.
  Proof.
    intros IH b st x val Hb Wx Sx. destruct (IH b (st_kids st) (st_fm st) x Hb Wx Sx) as [I1 I2].
    split.
    - intros v t Wv Sv. cbn [jvp JX]. specialize (I1 v). destruct seq_jvp_in as [[? ?] [r|e]]; cbn [snd some bind] in *; [|discriminate].
      intros E. injection E as <-. f_equal. now apply I1.
    - intros v t Wv Sv. cbn [jvp JW n_params]. fold (seq_np ms).
      specialize (I2 v (seq_np ms) 0 None t Wv Sv (le_n _) I). destruct seq_jvp_w as [[? ?] r]. cbn [snd] in *. intros E. rewrite (I2 E).
      cbn [accres]. f_equal. apply tab2_ext. intros q i Hq Hi. rewrite bsum_0 by (intros; cbn [av]; ring).
      cbn [Nat.add]. ring.
  Qed.

  Lemma leaf_fwdable_dec (l : leaf K) : leaf_fwdable l \/ ~ leaf_fwdable l.
  Proof. destruct l; cbn; tauto. Qed.

  Lemma sound_jvp :
    (forall m s s', typed m s s' -> forall b st x y val, 0 < b -> wf x -> shape x = b :: s ->
       fwd m x = Ok y -> val = None \/ val = Some y -> jvp_snd m s s' st b x val) /\
    (forall ms s s', typed_seq ms s s' -> seq_jvp_S ms s s').
  Proof.
    apply typed_both.
    - intros l s s' Ty b st x y val Hb Wx Sx Fy Hv. rewrite fwd_Leaf in Fy. cbv [jvp_snd]. cbn [jvp JX JW n_params snd].
      destruct (leaf_fwdable_dec l) as [Fb|Fb].
      + destruct (BL l s s' Ty Fb b x y val Hb Wx Sx Fy Hv) as [E1 E2]. split; intros v t Wv Sv E.
        * rewrite (E1 v Wv Sv) in E. now injection E.
        * rewrite (E2 v Wv Sv) in E. now injection E.
      + destruct l; cbn in Fb; try (exfalso; now apply Fb); (split; intros v t Wv Sv E; [discriminate E|]); [discriminate E|].
        cbn in E. injection E as <-. reflexivity.
    - intros cfg s s' Ty b st x y val Hb Wx Sx Fy Hv. split; intros v t Wv Sv E; cbn in E; [discriminate|]. injection E as <-. reflexivity.
    - intros ms s s' Ty IH b st x y val Hb Wx Sx Fy Hv. now apply sound_jvp_seq_body.
    - intros ms c c' r Ty IH b st x y val Hb Wx Sx Fy Hv.
      destruct (typed_fwd_y BF BPF _ _ _ b x y (ty_skip ms c c' r Ty) Hb Wx Sx Fy) as [Wy Sy].
      assert (N' : numel (c + c' :: r) = numel (c :: r) + numel (c' :: r)) by (numels; ring).
      assert (EV : exists t, val_tail (numel (c :: r)) val = Ok t).
      { destruct Hv as [->| ->]; [cbn; eauto|]. destruct (slice_from_any y (numel (c :: r))) as [vy Ey].
        - unfold rank; rewrite Sy; cbn; lia.
        - cbn [val_tail]. rewrite Ey. cbn. eauto. }
      destruct EV as [t Et].
      destruct (sound_jvp_seq_body ms (c :: r) (c' :: r) IH b (st_kid st) x t Hb Wx Sx) as [I1 I2].
      set (l1 := numel (c :: r)) in *. set (l2 := numel (c' :: r)) in *. unfold jvp_snd. rewrite N'.
      assert (Ps : per x = l1) by (unfold per; now rewrite Sx).
      assert (Es : size 0 x = Ok b) by (unfold size; now rewrite Sx).
      remember (Seq true ms) as F.
      split.
      + intros v t0 Wv Sv. specialize (I1 v). cbn [jvp]. rewrite (numel0_ok x b _ Hb Sx), Es. fold l1. cbn [bind]. rewrite Et. cbn [bind].
        destruct (jvp F (st_kid st) x t v Input) as [k0 [r0|e]]; cbn [snd bind] in *; [|discriminate]. specialize (I1 r0 Wv Sv eq_refl). subst r0. cbn [bind need].
        erewrite cat_tail_Jv; [intros E; injection E as <-; reflexivity|exact Sv|reflexivity| |].
        * intros q i Hq Hi. cbn [JX]. rewrite Ps. destruct (Nat.ltb_spec i l1); [|lia]. now rewrite bsum_delta_l.
        * intros q i j Hq Hi Hj. cbn [JX]. rewrite Ps. destruct (Nat.ltb_spec (l1 + i) l1); [lia|].
          now replace (l1 + i - l1) with i by lia.
      + intros v t0 Wv Sv. specialize (I2 v). cbn [jvp]. rewrite (numel0_ok x b _ Hb Sx), Es. fold l1. cbn [bind]. rewrite Et. cbn [bind].
        destruct (jvp F (st_kid st) x t v Weight) as [k0 [r0|e]]; cbn [snd bind] in *; [|discriminate]. specialize (I2 r0 Wv Sv eq_refl). subst r0.
        rewrite reshape_ok by (rewrite Sx; change (shape (zeros (b :: c :: r))) with (b :: c :: r); rewrite !numel_cons, numel_nil; unfold l1; rewrite !numel_cons; lia). cbn [bind n_params]. unfold wopt.
        destruct (Nat.eqb_spec (n_params F) 0); [discriminate|]. cbn [need bind].
        erewrite cat_tail_Jv; [intros E; injection E as <-; reflexivity|reflexivity|reflexivity| |].
        * intros q i Hq Hi. cbn [JW]. rewrite Ps. destruct (Nat.ltb_spec i l1); [|lia].
          rewrite bsum_0 by (intros; ring). rewrite get_mkT2. unfold zeros. rewrite Sx. unfold fill_with. rewrite flat_tab; [reflexivity|]. rewrite numel_cons. fold l1. nia.
        * intros q i j Hq Hi Hj. cbn [JW]. rewrite Ps. destruct (Nat.ltb_spec (l1 + i) l1); [lia|].
          now replace (l1 + i - l1) with i by lia.
    - intros s Hs b ks fm x Hb Wx Sx. split.
      + intros v t Wv Sv E. cbn in E. injection E as <-. cbn. now rewrite Jv_delta.
      + intros v P p acc t Wv Sv Hp Ha E. cbn in E. injection E as <-. destruct acc as [a|]; [|reflexivity]. destruct Ha as [Wa Sa].
        cbn [accres]. f_equal. unfold pushv. apply (tab2_eq n0); auto. intros q i Hq Hi. cbn [seq_JX bsum av].
        rewrite bsum_delta_l by auto. cbn. ring.
    - intros m ms s s1 s2 Tm IHm Ts IHs b ks fm x Hb Wx Sx.
      destruct (typed_fwd BF BPF m s s1 Tm b x Hb Wx Sx) as (y & Fy & Wy & Sy).
      assert (Py : per y = numel s1) by (unfold per; now rewrite Sy).
      assert (JXe : forall q i j, seq_JX JX (m :: ms) x q i j = bsum (numel s1) (fun k => nmul (seq_JX JX ms y q i k) (JX m x q k j))).
      { intros. cbn [seq_JX]. now rewrite Fy, Py. }
      split.
      + intros v t Wv Sv. cbn [seq_jvp_in]. destruct (kid_split ks) as [k0 ks0]. rewrite forward_eta, Fy.
        destruct (IHm b (fst (forward m k0 x)) x y (Some y) Hb Wx Sx Fy (or_intror eq_refl)) as [I1 _].
        specialize (I1 v). destruct (jvp m _ x (Some y) v Input) as [k1 [r1|e]]; cbn [snd bind] in *; [|discriminate].
        specialize (I1 r1 Wv Sv eq_refl). subst r1. cbn [need].
        destruct (IHs b ks0 (hook_push true fm y) y Hb Wy Sy) as [I2 _].
        set (v1 := Jv b (numel s1) (numel s) (JX m x) v) in *. specialize (I2 v1 t (wf_Jv _ _ _ _ _) eq_refl).
        destruct (seq_jvp_in jvp true ms ks0 y _ v1) as [[? ?] ?]. cbn [snd] in *. intros E. rewrite (I2 E). unfold v1.
        rewrite Jv_Jv. apply Jv_Jext. intros q i j Hq Hi Hj. now rewrite JXe.
      + intros v P p acc t Wv Sv Hp Ha. cbn [seq_jvp_w]. destruct (kid_split ks) as [k0 ks0]. rewrite forward_eta, Fy.
        unfold seq_np in Hp |- *. cbn [fold_right] in Hp |- *. fold (seq_np ms) in Hp |- *.
        set (vp := tab2 b (n_params m) (fun q j => gt v [q; p + j])).
        assert (Evp : slice n0 1 p (p + n_params m) v = Ok vp) by (rewrite slice1_2 with (b := b) (n := P) by (auto; lia); reflexivity).
        set (acc1 := match acc with None => None | Some a => Some (Jv b (numel s1) (numel s) (JX m x) a) end).
        set (call1 := match acc with None => (fst (forward m k0 x), Ok None) | Some a => jvp m (fst (forward m k0 x)) x (Some y) a Input end).
        assert (E1 : forall r, snd call1 = Ok r -> r = acc1).
        { unfold call1, acc1. intros r E. destruct acc as [a|]; [|cbn in E; now injection E as <-]. destruct Ha as [Wa Sa].
          destruct (IHm b (fst (forward m k0 x)) x y (Some y) Hb Wx Sx Fy (or_intror eq_refl)) as [I1 _]. now apply I1. }
        destruct call1 as [k1 [r1|e]]; cbn [snd bind] in E1 |- *; [|discriminate]. specialize (E1 r1 eq_refl). subst r1. rewrite Evp. cbn [bind].
        destruct (IHm b k1 x y (Some y) Hb Wx Sx Fy (or_intror eq_refl)) as [_ I2].
        specialize (I2 vp). destruct (jvp m k1 x (Some y) vp Weight) as [k2 [r2|e]]; cbn [snd bind] in I2 |- *; [|discriminate].
        specialize (I2 r2 (wf_tab _ _) eq_refl eq_refl). subst r2.
        set (acc2 := accres acc (n_params m) (pushv b (numel s1) (numel s) (n_params m) (JX m x) (JW m x) acc v p)).
        assert (E2 : accumulate acc1 (wopt (n_params m) (Jv b (numel s1) (n_params m) (JW m x) vp)) = Ok acc2).
        { unfold accumulate, wopt, acc1, acc2, accres, pushv, wopt. destruct (Nat.eqb_spec (n_params m) 0) as [Z|Z]; destruct acc as [a|].
          - do 2 f_equal. apply tab2_ext. intros q i Hq Hi. rewrite Z. cbn [bsum av]. ring.
          - reflexivity.
          - rewrite tadd_inplace_same by reflexivity. cbn [some bind]. do 2 f_equal.
            apply tab_ext. intros idx V. didx idx V. unfold Jv. rewrite !get_tab2 by auto. cbn [nth av]. f_equal.
            apply bsum_ext. intros j Hj. unfold vp. now rewrite get_tab2.
          - do 2 f_equal. apply tab2_ext. intros q i Hq Hi. rewrite (bsum_0 (numel s)) by (intros; cbn [av]; ring).
            rewrite (bsum_ext _ _ (fun j => nmul (JW m x q i j) (gt v [q; p + j]))); [ring|].
            intros j Hj. unfold vp. now rewrite get_tab2. }
        rewrite E2.
        assert (A2 : acc_ok acc2 b (numel s1)).
        { unfold acc2, accres, wopt. destruct acc; [split; [apply wf_tab|reflexivity]|]. destruct Nat.eqb; [exact I|]. split; [apply wf_tab|reflexivity]. }
        assert (Av : forall q k, q < b -> k < numel s1 -> av acc2 q k =
          nadd (bsum (numel s) (fun l => nmul (JX m x q k l) (av acc q l))) (bsum (n_params m) (fun j => nmul (JW m x q k j) (gt v [q; p + j])))).
        { intros q k Hq Hk. unfold acc2, accres, wopt. destruct acc as [a|].
          - cbn [av]. unfold pushv. now rewrite get_tab2.
          - destruct (Nat.eqb_spec (n_params m) 0) as [Z|Z]; cbn [av].
            + rewrite Z, bsum_0 by (intros; ring). cbn [bsum]. ring.
            + unfold pushv. now rewrite get_tab2. }
        destruct (IHs b ks0 (hook_push true fm y) y Hb Wy Sy) as [_ I3].
        specialize (I3 v P (p + n_params m) acc2 t Wv Sv ltac:(lia) A2).
        destruct (seq_jvp_w jvp true ms ks0 y _ v _ acc2) as [[? ?] ?]. cbn [snd] in *. intros E. rewrite (I3 E).
        assert (ET : pushv b (numel s2) (numel s1) (seq_np ms) (seq_JX JX ms y) (seq_JW JW ms y) acc2 v (p + n_params m) =
          pushv b (numel s2) (numel s) (n_params m + seq_np ms) (seq_JX JX (m :: ms) x) (seq_JW JW (m :: ms) x) acc v p).
        { apply tab2_ext. intros q i Hq Hi. rewrite bsum_app.
          rewrite (bsum_ext (numel s1) _ (fun k => nadd (bsum (numel s) (fun l => nmul (nmul (seq_JX JX ms y q i k) (JX m x q k l)) (av acc q l)))
             (bsum (n_params m) (fun j => nmul (nmul (seq_JX JX ms y q i k) (JW m x q k j)) (gt v [q; p + j]))))).
          2:{ intros k Hk. rewrite Av by auto. transitivity (nadd (nmul (seq_JX JX ms y q i k) (bsum (numel s) (fun l => nmul (JX m x q k l) (av acc q l))))
                (nmul (seq_JX JX ms y q i k) (bsum (n_params m) (fun j => nmul (JW m x q k j) (gt v [q; p + j]))))); [ring|].
              rewrite <- !bsum_mul_l. f_equal; apply bsum_ext; intros; ring. }
          rewrite bsum_add, (bsum_swap (numel s1) (numel s)), (bsum_swap (numel s1) (n_params m)).
          rewrite (bsum_ext (numel s) _ (fun k => nmul (seq_JX JX (m :: ms) x q i k) (av acc q k))).
          2:{ intros l9 Hl9. rewrite bsum_mul_r, JXe. reflexivity. }
          rewrite (bsum_ext (n_params m) _ (fun j => nmul (seq_JW JW (m :: ms) x q i j) (gt v [q; p + j]))).
          2:{ intros j Hj. rewrite bsum_mul_r. cbn [seq_JW]. rewrite Fy, Py. destruct (Nat.ltb_spec j (n_params m)); [reflexivity|lia]. }
          rewrite (bsum_ext (seq_np ms) _ (fun j => nmul (seq_JW JW (m :: ms) x q i (n_params m + j)) (gt v [q; p + (n_params m + j)]))).
          2:{ intros j Hj. cbn [seq_JW]. rewrite Fy. destruct (Nat.ltb_spec (n_params m + j) (n_params m)); [lia|].
              replace (n_params m + j - n_params m) with j by lia. now rewrite Nat.add_assoc. }
          ring. }
        rewrite ET. unfold acc2, accres, wopt. destruct acc; auto.
        destruct (Nat.eqb_spec (n_params m) 0) as [Z|Z]; [rewrite Z; reflexivity|].
        destruct (Nat.eqb_spec (n_params m + seq_np ms) 0); [lia|reflexivity].
  Qed.
End Jvp.
