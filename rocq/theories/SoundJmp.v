(** Jacobian-matrix products that return, return the product (no assumption on which layers occur). *)
From Coq Require Import String Ascii List Arith ZArith Lia Bool.
From Verif Require Import Scalar Sums Tensor TensorLemmas EinsumLemmas Conv Abstract Simple LinearLayer ConvLayer PoolLayer
  Module Spec OpLemmas ReshapeLemmas Jac LeafSpec TreeBase TreeVjp TreeMjp TreeJvp TreeJmp SoundJvp.
Import ListNotations.
Local Open Scope nat_scope.
Local Open Scope list_scope.

Section Jmp.
  Context {K} `{CR : CRing K}.
  Add Ring Kring : (cring : ring_theory n0 n1 nadd nmul nsub nopp (@eq K)).
  Notation gt := (get (@n0 K _)).
  Notation T := (tensor K).

  Variable BF : @base_fwd K _.
  Variable BPF : @base_pool_fwd K _.
  Variable BL : forall l s s', leaf_typed l s s' -> leaf_fwdable l -> @leaf_jmp_spec K _ l s s'.

  (** the number of columns *)
  Variable cc : nat.
  Variable Hcc : 0 < cc.

  (** a MaxPool2d that is handed val must have stored the indices of that forward pass *)
  Definition pool_fresh (m : module K) (st : st K) (x : T) (val : option T) : Prop :=
    match m with MaxPool _ => val = None \/ exists k, st = fst (forward m k x) | _ => True end.
  Variable BPJ : forall cfg s s', pool_typed cfg s s' -> forall b st x y val v t, 0 < b -> wf x -> shape x = b :: s ->
    fwd (MaxPool cfg) x = Ok y -> val = None \/ val = Some y -> pool_fresh (MaxPool cfg) st x val -> wf v -> shape v = [b; numel s; cc] ->
    snd (jmp (MaxPool cfg) st x val (Some v) Input) = Ok t -> t = Some (JM b (numel s') (numel s) cc (JX (MaxPool cfg) x) v).

  Definition seq_jmp_S (ms : list (module K)) s s' : Prop :=
    forall b ks fm x, 0 < b -> wf x -> shape x = b :: s ->
    (forall v t, wf v -> shape v = [b; numel s; cc] -> snd (seq_jmp_in jmp true ms ks x fm (Some v)) = Ok t ->
       t = Some (JM b (numel s') (numel s) cc (seq_JX JX ms x) v)) /\
    (forall v P p acc t, wf v -> shape v = [b; P; cc] -> p + seq_np ms <= P -> accm_ok cc acc b (numel s) ->
       snd (seq_jmp_w jmp true ms ks x fm v p acc) = Ok t ->
       t = accresm acc (seq_np ms) (pushm cc b (numel s') (numel s) (seq_np ms) (seq_JX JX ms x) (seq_JW JW ms x) acc v p)).
  Definition jmp_snd (m : module K) s s' (st : st K) b x val : Prop :=
    (pool_fresh m st x val -> forall v t, wf v -> shape v = [b; numel s; cc] -> snd (jmp m st x val (Some v) Input) = Ok t ->
      t = Some (JM b (numel s') (numel s) cc (JX m x) v)) /\
    (forall v t, wf v -> shape v = [b; n_params m; cc] -> snd (jmp m st x val (Some v) Weight) = Ok t ->
      t = wopt (n_params m) (JM b (numel s') (n_params m) cc (JW m x) v)).

  Lemma sound_jmp_seq_body ms s s' : seq_jmp_S ms s s' -> forall b st x val, 0 < b -> wf x -> shape x = b :: s ->
    jmp_snd (Seq true ms) s s' st b x val.
  Proof.
    intros IH b st x val Hb Wx Sx. destruct (IH b (st_kids st) (st_fm st) x Hb Wx Sx) as [I1 I2].
    split.
    - intros _ v t Wv Sv. cbn [jmp JX wrt_ok]. specialize (I1 v t Wv Sv). destruct seq_jmp_in as [[? ?] r]; cbn [snd] in *. exact I1.
    - intros v t Wv Sv. cbn [jmp JW n_params wrt_ok]. fold (seq_np ms).
      specialize (I2 v (seq_np ms) 0 None t Wv Sv (le_n _) I). destruct seq_jmp_w as [[? ?] r]. cbn [snd] in *. intros E. rewrite (I2 E).
      cbn [accresm]. f_equal. apply tab3_ext. intros q i a0 Hq Hi Ha0. rewrite bsum_0 by (intros; cbn [avm]; ring).
      cbn [Nat.add]. ring.
  Qed.

  Lemma pool_fresh_fwd m k x val : pool_fresh m (fst (forward m k x)) x val.
  Proof. destruct m; cbn [pool_fresh]; auto. right. now exists k. Qed.

  Lemma sound_jmp :
    (forall m s s', typed m s s' -> forall b st x y val, 0 < b -> wf x -> shape x = b :: s ->
       fwd m x = Ok y -> val = None \/ val = Some y -> jmp_snd m s s' st b x val) /\
    (forall ms s s', typed_seq ms s s' -> seq_jmp_S ms s s').
  Proof.
    apply typed_both.
    - intros l s s' Ty b st x y val Hb Wx Sx Fy Hv. rewrite fwd_Leaf in Fy. cbv [jmp_snd]. cbn [jmp JX JW n_params snd].
      destruct (leaf_fwdable_dec l) as [Fb|Fb].
      + destruct (BL l s s' Ty Fb b x y val Hb Wx Sx Fy Hv cc Hcc) as [E1 E2]. split; [intros _|]; intros v t Wv Sv E.
        * rewrite (E1 v Wv Sv) in E. now injection E.
        * rewrite (E2 v Wv Sv) in E. now injection E.
      + destruct l; cbn in Fb; try (exfalso; now apply Fb); (split; [intros _|]; intros v t Wv Sv E); try discriminate E.
        cbn in E. injection E as <-. reflexivity.
    - intros cfg s s' Ty b st x y val Hb Wx Sx Fy Hv. split; [intros Pf|]; intros v t Wv Sv E.
      + exact (BPJ cfg s s' Ty b st x y val v t Hb Wx Sx Fy Hv Pf Wv Sv E).
      + cbn in E. injection E as <-. reflexivity.
    - intros ms s s' Ty IH b st x y val Hb Wx Sx Fy Hv. now apply sound_jmp_seq_body.
    - intros ms c c' r Ty IH b st x y val Hb Wx Sx Fy Hv.
      destruct (typed_fwd_y BF BPF _ _ _ b x y (ty_skip ms c c' r Ty) Hb Wx Sx Fy) as [Wy Sy].
      assert (N' : numel (c + c' :: r) = numel (c :: r) + numel (c' :: r)) by (numels; ring).
      assert (EV : exists t, val_tail (numel (c :: r)) val = Ok t).
      { destruct Hv as [->| ->]; [cbn; eauto|]. destruct (slice_from_any y (numel (c :: r))) as [vy Ey].
        - unfold rank; rewrite Sy; cbn; lia.
        - cbn [val_tail]. rewrite Ey. cbn. eauto. }
      destruct EV as [t Et].
      destruct (sound_jmp_seq_body ms (c :: r) (c' :: r) IH b (st_kid st) x t Hb Wx Sx) as [I1 I2]. specialize (I1 I).
      set (l1 := numel (c :: r)) in *. set (l2 := numel (c' :: r)) in *. unfold jmp_snd. rewrite N'.
      assert (Ps : per x = l1) by (unfold per; now rewrite Sx).
      assert (Es : size 0 x = Ok b) by (unfold size; now rewrite Sx).
      remember (Seq true ms) as F.
      split.
      + intros _ v t0 Wv Sv. specialize (I1 v). cbn [jmp]. rewrite (numel0_ok x b _ Hb Sx), Es. fold l1. cbn [bind]. rewrite Et. cbn [bind].
        destruct (jmp F (st_kid st) x t (Some v) Input) as [k0 [r0|e]]; cbn [snd bind] in *; [|discriminate]. specialize (I1 r0 Wv Sv eq_refl). subst r0. cbn [bind need].
        erewrite cat_tail_JM; [intros E; injection E as <-; reflexivity|exact Hcc|exact Sv|reflexivity| |].
        * intros q i Hq Hi. cbn [JX]. rewrite Ps. destruct (Nat.ltb_spec i l1); [|lia]. now rewrite bsum_delta_l.
        * intros q i j Hq Hi Hj. cbn [JX]. rewrite Ps. destruct (Nat.ltb_spec (l1 + i) l1); [lia|].
          now replace (l1 + i - l1) with i by lia.
      + intros v t0 Wv Sv. specialize (I2 v). cbn [jmp]. rewrite (numel0_ok x b _ Hb Sx), Es. fold l1. cbn [bind]. rewrite Et. cbn [bind].
        destruct (jmp F (st_kid st) x t (Some v) Weight) as [k0 [r0|e]]; cbn [snd bind] in *; [|discriminate]. specialize (I2 r0 Wv Sv eq_refl). subst r0.
        assert (Ec : size 2 v = Ok cc) by (unfold size; now rewrite Sv). rewrite Ec. cbn [bind n_params]. unfold wopt.
        destruct (Nat.eqb_spec (n_params F) 0); [discriminate|]. cbn [need bind].
        erewrite cat_tail_JM; [intros E; injection E as <-; reflexivity|exact Hcc|reflexivity|reflexivity| |].
        * intros q i a0 Hq Hi Ha0. cbn [JW]. rewrite Ps. destruct (Nat.ltb_spec i l1); [|lia].
          rewrite bsum_0 by (intros; ring). unfold zeros, fill_with. rewrite get_tab; [reflexivity|]. cbn. auto.
        * intros q i j Hq Hi Hj. cbn [JW]. rewrite Ps. destruct (Nat.ltb_spec (l1 + i) l1); [lia|].
          now replace (l1 + i - l1) with i by lia.
    - intros s Hs b ks fm x Hb Wx Sx. split.
      + intros v t Wv Sv E. cbn in E. injection E as <-. cbn. f_equal. now rewrite JM_delta.
      + intros v P p acc t Wv Sv Hp Ha E. cbn in E. injection E as <-. destruct acc as [a|]; [|reflexivity]. destruct Ha as [Wa Sa].
        cbn [accresm]. f_equal. unfold pushm. apply (tab3_eq n0); auto. intros q i a0 Hq Hi Ha0. cbn [seq_JX bsum avm].
        rewrite bsum_delta_l by auto. cbn. ring.
    - intros m ms s s1 s2 Tm IHm Ts IHs b ks fm x Hb Wx Sx.
      destruct (typed_fwd BF BPF m s s1 Tm b x Hb Wx Sx) as (y & Fy & Wy & Sy).
      assert (Py : per y = numel s1) by (unfold per; now rewrite Sy).
      assert (JXe : forall q i j, seq_JX JX (m :: ms) x q i j = bsum (numel s1) (fun k => nmul (seq_JX JX ms y q i k) (JX m x q k j))).
      { intros. cbn [seq_JX]. now rewrite Fy, Py. }
      split.
      + intros v t Wv Sv. cbn [seq_jmp_in]. destruct (kid_split ks) as [k0 ks0]. rewrite forward_eta, Fy.
        destruct (IHm b (fst (forward m k0 x)) x y (Some y) Hb Wx Sx Fy (or_intror eq_refl)) as [I1 _]. specialize (I1 (pool_fresh_fwd m k0 x (Some y))).
        specialize (I1 v). destruct (jmp m _ x (Some y) (Some v) Input) as [k1 [r1|e]]; cbn [snd bind] in *; [|discriminate].
        specialize (I1 r1 Wv Sv eq_refl). subst r1. cbn [need].
        destruct (IHs b ks0 (hook_push true fm y) y Hb Wy Sy) as [I2 _].
        set (v1 := JM b (numel s1) (numel s) cc (JX m x) v) in *. specialize (I2 v1 t (wf_JM _ _ _ _ _ _) eq_refl).
        destruct (seq_jmp_in jmp true ms ks0 y _ (Some v1)) as [[? ?] ?]. cbn [snd] in *. intros E. rewrite (I2 E). unfold v1.
        rewrite JM_JM. f_equal. apply JM_Jext. intros q i j Hq Hi Hj. now rewrite JXe.
      + intros v P p acc t Wv Sv Hp Ha. cbn [seq_jmp_w]. destruct (kid_split ks) as [k0 ks0]. rewrite forward_eta, Fy.
        unfold seq_np in Hp |- *. cbn [fold_right] in Hp |- *. fold (seq_np ms) in Hp |- *.
        set (vp := tab3 b (n_params m) cc (fun q j a0 => gt v [q; p + j; a0])).
        assert (Evp : slice n0 1 p (p + n_params m) v = Ok vp) by (rewrite slice1_3 with (b := b) (n := P) (p := cc) by (auto; lia); reflexivity).
        set (acc1 := match acc with None => None | Some a => Some (JM b (numel s1) (numel s) cc (JX m x) a) end).
        set (call1 := match acc with None => (fst (forward m k0 x), Ok None) | Some a => jmp m (fst (forward m k0 x)) x (Some y) (Some a) Input end).
        assert (E1 : forall r, snd call1 = Ok r -> r = acc1).
        { unfold call1, acc1. intros r E. destruct acc as [a|]; [|cbn in E; now injection E as <-]. destruct Ha as [Wa Sa].
          destruct (IHm b (fst (forward m k0 x)) x y (Some y) Hb Wx Sx Fy (or_intror eq_refl)) as [I1 _]. specialize (I1 (pool_fresh_fwd m k0 x (Some y))). now apply I1. }
        destruct call1 as [k1 [r1|e]]; cbn [snd bind] in E1 |- *; [|discriminate]. specialize (E1 r1 eq_refl). subst r1. rewrite Evp. cbn [bind]. replace (Nat.eqb (rank v) 3) with true by (unfold rank; now rewrite Sv). cbn [check bind].
        destruct (IHm b k1 x y (Some y) Hb Wx Sx Fy (or_intror eq_refl)) as [_ I2].
        specialize (I2 vp). destruct (jmp m k1 x (Some y) (Some vp) Weight) as [k2 [r2|e]]; cbn [snd bind] in I2 |- *; [|discriminate].
        specialize (I2 r2 (wf_tab _ _) eq_refl eq_refl). subst r2.
        set (acc2 := accresm acc (n_params m) (pushm cc b (numel s1) (numel s) (n_params m) (JX m x) (JW m x) acc v p)).
        assert (E2 : accumulate acc1 (wopt (n_params m) (JM b (numel s1) (n_params m) cc (JW m x) vp)) = Ok acc2).
        { unfold accumulate, wopt, acc1, acc2, accresm, pushm, wopt. destruct (Nat.eqb_spec (n_params m) 0) as [Z|Z]; destruct acc as [a|].
          - do 2 f_equal. apply tab3_ext. intros q i a0 Hq Hi Ha0. rewrite Z. cbn [bsum avm]. ring.
          - reflexivity.
          - rewrite tadd_inplace_same by reflexivity. cbn [some bind]. do 2 f_equal.
            apply tab_ext. intros idx V. didx idx V. unfold JM. rewrite !get_tab3 by auto. cbn [nth avm]. f_equal.
            apply bsum_ext. intros j Hj. unfold vp. now rewrite get_tab3.
          - do 2 f_equal. apply tab3_ext. intros q i a0 Hq Hi Ha0. rewrite (bsum_0 (numel s)) by (intros; cbn [avm]; ring).
            rewrite (bsum_ext _ _ (fun j => nmul (JW m x q i j) (gt v [q; p + j; a0]))); [ring|].
            intros j Hj. unfold vp. now rewrite get_tab3. }
        rewrite E2.
        assert (A2 : accm_ok cc acc2 b (numel s1)).
        { unfold acc2, accresm, wopt. destruct acc; [split; [apply wf_tab|reflexivity]|]. destruct Nat.eqb; [exact I|]. split; [apply wf_tab|reflexivity]. }
        assert (Av : forall q k a0, q < b -> k < numel s1 -> a0 < cc -> avm acc2 q k a0 =
          nadd (bsum (numel s) (fun l => nmul (JX m x q k l) (avm acc q l a0))) (bsum (n_params m) (fun j => nmul (JW m x q k j) (gt v [q; p + j; a0])))).
        { intros q k a0 Hq Hk Ha0. unfold acc2, accresm, wopt. destruct acc as [a|].
          - cbn [avm]. unfold pushm. now rewrite get_tab3.
          - destruct (Nat.eqb_spec (n_params m) 0) as [Z|Z]; cbn [avm].
            + rewrite Z, bsum_0 by (intros; ring). cbn [bsum]. ring.
            + unfold pushm. now rewrite get_tab3. }
        destruct (IHs b ks0 (hook_push true fm y) y Hb Wy Sy) as [_ I3].
        specialize (I3 v P (p + n_params m) acc2 t Wv Sv ltac:(lia) A2).
        destruct (seq_jmp_w jmp true ms ks0 y _ v _ acc2) as [[? ?] ?]. cbn [snd] in *. intros E. rewrite (I3 E).
        assert (ET : pushm cc b (numel s2) (numel s1) (seq_np ms) (seq_JX JX ms y) (seq_JW JW ms y) acc2 v (p + n_params m) =
          pushm cc b (numel s2) (numel s) (n_params m + seq_np ms) (seq_JX JX (m :: ms) x) (seq_JW JW (m :: ms) x) acc v p).
        { apply tab3_ext. intros q i a0 Hq Hi Ha0. rewrite bsum_app.
          rewrite (bsum_ext (numel s1) _ (fun k => nadd (bsum (numel s) (fun l => nmul (nmul (seq_JX JX ms y q i k) (JX m x q k l)) (avm acc q l a0)))
             (bsum (n_params m) (fun j => nmul (nmul (seq_JX JX ms y q i k) (JW m x q k j)) (gt v [q; p + j; a0]))))).
          2:{ intros k Hk. rewrite Av by auto. transitivity (nadd (nmul (seq_JX JX ms y q i k) (bsum (numel s) (fun l => nmul (JX m x q k l) (avm acc q l a0))))
                (nmul (seq_JX JX ms y q i k) (bsum (n_params m) (fun j => nmul (JW m x q k j) (gt v [q; p + j; a0]))))); [ring|].
              rewrite <- !bsum_mul_l. f_equal; apply bsum_ext; intros; ring. }
          rewrite bsum_add, (bsum_swap (numel s1) (numel s)), (bsum_swap (numel s1) (n_params m)).
          rewrite (bsum_ext (numel s) _ (fun k => nmul (seq_JX JX (m :: ms) x q i k) (avm acc q k a0))).
          2:{ intros l9 Hl9. rewrite bsum_mul_r, JXe. reflexivity. }
          rewrite (bsum_ext (n_params m) _ (fun j => nmul (seq_JW JW (m :: ms) x q i j) (gt v [q; p + j; a0]))).
          2:{ intros j Hj. rewrite bsum_mul_r. cbn [seq_JW]. rewrite Fy, Py. destruct (Nat.ltb_spec j (n_params m)); [reflexivity|lia]. }
          rewrite (bsum_ext (seq_np ms) _ (fun j => nmul (seq_JW JW (m :: ms) x q i (n_params m + j)) (gt v [q; p + (n_params m + j); a0]))).
          2:{ intros j Hj. cbn [seq_JW]. rewrite Fy. destruct (Nat.ltb_spec (n_params m + j) (n_params m)); [lia|].
              replace (n_params m + j - n_params m) with j by lia. now rewrite Nat.add_assoc. }
          ring. }
        rewrite ET. unfold acc2, accresm, wopt. destruct acc; auto.
        destruct (Nat.eqb_spec (n_params m) 0) as [Z|Z]; [rewrite Z; reflexivity|].
        destruct (Nat.eqb_spec (n_params m + seq_np ms) 0); [lia|reflexivity].
  Qed.
End Jmp.
