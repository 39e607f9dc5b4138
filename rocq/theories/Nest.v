(** Two networks with the same function and the same Jacobians give the same results in every product; in particular
    a Sequential inside a Sequential can be spliced into it. *)
From Coq Require Import String Ascii List Arith ZArith Lia Bool.
From Verif Require Import Scalar Sums Tensor TensorLemmas EinsumLemmas Conv Abstract Simple LinearLayer ConvLayer PoolLayer
  Module Spec OpLemmas ReshapeLemmas Jac LeafSpec LeafSimple TreeBase TreeVjp TreeMjp TreePull TreeJvp TreeJmp TreePush Leaves Trees.
Import ListNotations.
Local Open Scope nat_scope.
Local Open Scope list_scope.

Section Nest.
  Context {K} `{CR : CRing K}.
  Add Ring Kring : (cring : ring_theory n0 n1 nadd nmul nsub nopp (@eq K)).
  Notation gt := (get (@n0 K _)).
  Notation T := (tensor K).

  Lemma fwd_seq_app (a b : list (module K)) x : fwd_seq (a ++ b) x = (y <- fwd_seq a x ;; fwd_seq b y).
  Proof. revert x. induction a as [|m a IH]; intros x; [reflexivity|]. cbn. destruct (fwd m x); [apply IH|reflexivity]. Qed.
  Lemma typed_seq_app (a b : list (module K)) s s1 s2 : typed_seq a s s1 -> typed_seq b s1 s2 -> typed_seq (a ++ b) s s2.
  Proof.
    revert s. induction a as [|m a IH]; intros s A B.
    - now inversion A; subst.
    - inversion A; subst. cbn. econstructor; eauto.
  Qed.
  Lemma typed_seq_app_inv (a b : list (module K)) s s2 : typed_seq (a ++ b) s s2 -> exists s1, typed_seq a s s1 /\ typed_seq b s1 s2.
  Proof.
    revert s. induction a as [|m a IH]; intros s Ty.
    - exists s. split; auto. constructor. now destruct (typed_pos_s _ _ _ Ty).
    - inversion Ty as [|? ? ? ? ? Tm Ts]; subst. destruct (IH _ Ts) as (s0 & A & B). exists s0. split; auto. econstructor; eauto.
  Qed.
  Lemma seq_np_app (a b : list (module K)) : seq_np (a ++ b) = seq_np a + seq_np b.
  Proof. induction a as [|m a IH]; auto. change (n_params m + seq_np (a ++ b) = n_params m + seq_np a + seq_np b). lia. Qed.
  Lemma fwd_seq_typed ms s s' b (x y : T) : typed_seq ms s s' -> 0 < b -> wf x -> shape x = b :: s -> fwd_seq ms x = Ok y -> wf y /\ shape y = b :: s'.
  Proof.
    intros Ty Hb Wx Sx E. destruct (typed_fwd_seq BF BPF ms s s' Ty b x Hb Wx Sx) as (z & E' & Wz & Sz). assert (z = y) by congruence. now subst.
  Qed.

  Lemma seq_JX_app (a r : list (module K)) : forall s s1 s2 b (x y : T) q i j, typed_seq a s s1 -> typed_seq r s1 s2 -> 0 < b -> wf x -> shape x = b :: s ->
    fwd_seq a x = Ok y -> j < numel s ->
    seq_JX JX (a ++ r) x q i j = bsum (numel s1) (fun k => nmul (seq_JX JX r y q i k) (seq_JX JX a x q k j)).
  Proof.
    induction a as [|m a IH]; intros s s1 s2 b x y q i j Ta Tr Hb Wx Sx E Hj.
    - inversion Ta; subst. injection E as <-. cbn [app seq_JX]. now rewrite bsum_delta_r.
    - inversion Ta as [|m' a' s0 sm s3 Tm Ta']; subst. cbn [app seq_JX fwd_seq] in *. destruct (fwd m x) as [z|] eqn:Ez; [|discriminate].
      destruct (typed_fwd_y BF BPF _ _ _ b x z Tm Hb Wx Sx Ez) as [Wz Sz]. cbn [bind] in E. rewrite (per_shape z b sm Sz).
      rewrite (bsum_ext _ _ (fun k => bsum (numel s1) (fun l => nmul (nmul (seq_JX JX r y q i l) (seq_JX JX a z q l k)) (JX m x q k j)))).
      2:{ intros k Hk. now rewrite (IH sm s1 s2 b z y q i k Ta' Tr Hb Wz Sz E Hk), bsum_mul_r. }
      rewrite bsum_swap. apply bsum_ext. intros l Hl. rewrite <- bsum_mul_l. apply bsum_ext. intros. ring.
  Qed.
  Lemma seq_JW_app (a r : list (module K)) : forall s s1 s2 b (x y : T) q i p, typed_seq a s s1 -> typed_seq r s1 s2 -> 0 < b -> wf x -> shape x = b :: s ->
    fwd_seq a x = Ok y ->
    seq_JW JW (a ++ r) x q i p = if p <? seq_np a then bsum (numel s1) (fun k => nmul (seq_JX JX r y q i k) (seq_JW JW a x q k p))
                                 else seq_JW JW r y q i (p - seq_np a).
  Proof.
    induction a as [|m a IH]; intros s s1 s2 b x y q i p Ta Tr Hb Wx Sx E.
    - inversion Ta; subst. injection E as <-. cbn [app seq_JW]. cbn. now rewrite Nat.sub_0_r.
    - inversion Ta as [|m' a' s0 sm s3 Tm Ta']; subst. cbn [app seq_JW fwd_seq] in *. destruct (fwd m x) as [z|] eqn:Ez; [|discriminate].
      destruct (typed_fwd_y BF BPF _ _ _ b x z Tm Hb Wx Sx Ez) as [Wz Sz]. cbn [bind] in E. rewrite (per_shape z b sm Sz).
      change (seq_np (m :: a)) with (n_params m + seq_np a).
      destruct (Nat.ltb_spec p (n_params m)) as [L|L].
      + replace (p <? n_params m + seq_np a) with true by (symmetry; apply Nat.ltb_lt; lia).
        rewrite (bsum_ext _ _ (fun k => bsum (numel s1) (fun l => nmul (nmul (seq_JX JX r y q i l) (seq_JX JX a z q l k)) (JW m x q k p)))).
        2:{ intros k Hk. now rewrite (seq_JX_app a r sm s1 s2 b z y q i k Ta' Tr Hb Wz Sz E Hk), bsum_mul_r. }
        rewrite bsum_swap. apply bsum_ext. intros l Hl. rewrite <- bsum_mul_l. apply bsum_ext. intros. ring.
      + rewrite (IH sm s1 s2 b z y q i _ Ta' Tr Hb Wz Sz E). destruct (Nat.ltb_spec (p - n_params m) (seq_np a)).
        * replace (p <? n_params m + seq_np a) with true by (symmetry; apply Nat.ltb_lt; lia). reflexivity.
        * replace (p <? n_params m + seq_np a) with false by (symmetry; apply Nat.ltb_ge; lia). f_equal. lia.
  Qed.

  (** networks that agree in shape, function and Jacobians *)
  Record alike (m m' : module K) (s s' : list nat) (b : nat) (x : T) : Prop := {
    al_t : typed m s s'; al_t' : typed m' s s'; al_b : 0 < b; al_w : wf x; al_s : shape x = b :: s;
    al_n : n_params m = n_params m'; al_f : fwd m x = fwd m' x;
    al_X : forall q i j, q < b -> i < numel s' -> j < numel s -> JX m x q i j = JX m' x q i j;
    al_W : forall q i p, q < b -> i < numel s' -> p < n_params m -> JW m x q i p = JW m' x q i p }.

  Section Alike.
    Variables (m m' : module K) (s s' : list nat) (b : nat) (x : T) (h h' : st K).
    Hypothesis A : alike m m' s s' b x.
    Let Ty := al_t _ _ _ _ _ _ A. Let Ty' := al_t' _ _ _ _ _ _ A. Let Hb := al_b _ _ _ _ _ _ A. Let Wx := al_w _ _ _ _ _ _ A. Let Sx := al_s _ _ _ _ _ _ A.
    Lemma alike_denseX : dense b (numel s') (numel s) (JX m x) = dense b (numel s') (numel s) (JX m' x).
    Proof. apply tab3_ext. apply A. Qed.
    Lemma alike_denseW : dense b (numel s') (n_params m) (JW m x) = dense b (numel s') (n_params m') (JW m' x).
    Proof. rewrite <- (al_n _ _ _ _ _ _ A). apply tab3_ext. apply A. Qed.
    Lemma alike_jac_input : snd (jacobian m h x None Input) = snd (jacobian m' h' x None Input).
    Proof. rewrite (jac_input m s s' b x Ty Hb Wx Sx), (jac_input m' s s' b x Ty' Hb Wx Sx). now rewrite alike_denseX. Qed.
    Lemma alike_jac_weight : (n_params m = 0 -> (forall F, m <> Skip F) /\ (forall F, m' <> Skip F)) ->
      snd (jacobian m h x None Weight) = snd (jacobian m' h' x None Weight).
    Proof.
      intros NS. assert (D : n_params m = 0 \/ n_params m <> 0) by lia. destruct D as [D|D].
      - rewrite (jac_weight0 m s s' b x Ty Hb Wx Sx), (jac_weight0 m' s s' b x Ty' Hb Wx Sx); auto; try apply NS; auto. rewrite <- (al_n _ _ _ _ _ _ A); auto.
      - rewrite (jac_weight m s s' b x Ty Hb Wx Sx), (jac_weight m' s s' b x Ty' Hb Wx Sx); auto; [now rewrite alike_denseW|]. rewrite <- (al_n _ _ _ _ _ _ A); auto.
    Qed.
    Lemma alike_vjp v w : w <> Other -> wf v -> shape v = [b; numel s'] -> snd (vjp m h x None v w) = snd (vjp m' h' x None v w).
    Proof.
      intros Hw Wv Sv. destruct (fwd_total m s s' b x Ty Hb Wx Sx) as (y & Fy & _). pose proof Fy as Fy'. rewrite (al_f _ _ _ _ _ _ A) in Fy'.
      destruct (tree_vjp_none BF BPF BLv BPv m s s' Ty b h x y v Hb Wx Sx Fy Wv Sv) as [E1 E2].
      destruct (tree_vjp_none BF BPF BLv BPv m' s s' Ty' b h' x y v Hb Wx Sx Fy' Wv Sv) as [E1' E2'].
      destruct w; [rewrite E1, E1'|rewrite E2, E2'|congruence].
      - do 2 f_equal. rewrite <- (vJ_dense b (numel s') (numel s) (JX m x)), <- (vJ_dense b (numel s') (numel s) (JX m' x)). now rewrite alike_denseX.
      - rewrite <- (vJ_dense b (numel s') (n_params m) (JW m x)), <- (vJ_dense b (numel s') (n_params m') (JW m' x)). rewrite alike_denseW. now rewrite (al_n _ _ _ _ _ _ A).
    Qed.
    Lemma alike_mjp r M w : w <> Other -> 0 < r -> wf M -> shape M = [b; r; numel s'] -> snd (mjp m h x None (Some M) w) = snd (mjp m' h' x None (Some M) w).
    Proof.
      intros Hw Hr Wv Sv. destruct (fwd_total m s s' b x Ty Hb Wx Sx) as (y & Fy & _). pose proof Fy as Fy'. rewrite (al_f _ _ _ _ _ _ A) in Fy'.
      destruct (tree_mjp_none BF BPF BLm BPm m s s' Ty b h x y r M Hb Wx Sx Fy Hr Wv Sv) as [E1 E2].
      destruct (tree_mjp_none BF BPF BLm BPm m' s s' Ty' b h' x y r M Hb Wx Sx Fy' Hr Wv Sv) as [E1' E2'].
      destruct w; [rewrite E1, E1'|rewrite E2, E2'|congruence].
      - do 2 f_equal. rewrite <- (MJ_dense b r (numel s') (numel s) (JX m x)), <- (MJ_dense b r (numel s') (numel s) (JX m' x)). now rewrite alike_denseX.
      - rewrite <- (MJ_dense b r (numel s') (n_params m) (JW m x)), <- (MJ_dense b r (numel s') (n_params m') (JW m' x)). rewrite alike_denseW. now rewrite (al_n _ _ _ _ _ _ A).
    Qed.
    Lemma alike_jvp v w : w <> Other -> fwdable m -> fwdable m' -> (w = Weight -> skips_param m /\ skips_param m') ->
      wf v -> shape v = [b; match w with Input => numel s | _ => n_params m end] -> snd (jvp m h x None v w) = snd (jvp m' h' x None v w).
    Proof.
      intros Hw Fb Fb' Sk Wv Sv. destruct w; [| |congruence].
      - destruct (jvp_input m s s' b x Ty Hb Wx Sx h h None v Fb (or_introl eq_refl) Wv Sv) as (J & E1 & _ & _ & E2).
        destruct (jvp_input m' s s' b x Ty' Hb Wx Sx h' h' None v Fb' (or_introl eq_refl) Wv Sv) as (J' & E1' & _ & _ & E2').
        rewrite alike_jac_input in E1. assert (J = J') by congruence. subst J'. congruence.
      - destruct (Sk eq_refl) as [Sp Sp']. pose proof Sv as Sv'. rewrite (al_n _ _ _ _ _ _ A) in Sv'.
        destruct (jvp_weight m s s' b x Ty Hb Wx Sx h h None v Fb Sp (or_introl eq_refl) Wv Sv) as [P1 P2].
        destruct (jvp_weight m' s s' b x Ty' Hb Wx Sx h' h' None v Fb' Sp' (or_introl eq_refl) Wv Sv') as [P1' P2'].
        assert (D : n_params m = 0 \/ n_params m <> 0) by lia. destruct D as [D|D]; pose proof D as D'; rewrite (al_n _ _ _ _ _ _ A) in D'.
        + now rewrite P2, P2'.
        + destruct (P1 D) as (J & E1 & _ & _ & ->). destruct (P1' D') as (J' & E1' & _ & _ & ->).
          rewrite alike_jac_weight in E1 by contradiction. assert (J = J') by congruence. subst J'. now rewrite (al_n _ _ _ _ _ _ A).
    Qed.
    Lemma alike_jmp c M w : w <> Other -> fwdable m -> fwdable m' -> (w = Weight -> skips_param m /\ skips_param m') ->
      0 < c -> wf M -> shape M = [b; match w with Input => numel s | _ => n_params m end; c] -> snd (jmp m h x None (Some M) w) = snd (jmp m' h' x None (Some M) w).
    Proof.
      intros Hw Fb Fb' Sk Hc Wv Sv. destruct w; [| |congruence].
      - destruct (jmp_input m s s' b x Ty Hb Wx Sx h h None c M Fb (or_introl eq_refl) Hc Wv Sv) as (J & E1 & _ & _ & E2).
        destruct (jmp_input m' s s' b x Ty' Hb Wx Sx h' h' None c M Fb' (or_introl eq_refl) Hc Wv Sv) as (J' & E1' & _ & _ & E2').
        rewrite alike_jac_input in E1. assert (J = J') by congruence. subst J'. congruence.
      - destruct (Sk eq_refl) as [Sp Sp']. pose proof Sv as Sv'. rewrite (al_n _ _ _ _ _ _ A) in Sv'.
        destruct (jmp_weight m s s' b x Ty Hb Wx Sx h h None c M Fb Sp (or_introl eq_refl) Hc Wv Sv) as [P1 P2].
        destruct (jmp_weight m' s s' b x Ty' Hb Wx Sx h' h' None c M Fb' Sp' (or_introl eq_refl) Hc Wv Sv') as [P1' P2'].
        assert (D : n_params m = 0 \/ n_params m <> 0) by lia. destruct D as [D|D]; pose proof D as D'; rewrite (al_n _ _ _ _ _ _ A) in D'.
        + now rewrite P2, P2'.
        + destruct (P1 D) as (J & E1 & _ & _ & ->). destruct (P1' D') as (J' & E1' & _ & _ & ->).
          rewrite alike_jac_weight in E1 by contradiction. assert (J = J') by congruence. subst J'. now rewrite (al_n _ _ _ _ _ _ A).
    Qed.
    Lemma alike_jTmjp fd td M : all_sym m -> all_sym m' -> nonempty m -> nonempty m' -> wf M -> shape M = metric_shape fd b (numel s') ->
      snd (jTmjp m h x None (VT M) Input fd td false) = snd (jTmjp m' h' x None (VT M) Input fd td false) /\
      (n_params m <> 0 -> snd (jTmjp m h x None (VT M) Weight fd true false) = snd (jTmjp m' h' x None (VT M) Weight fd true false)).
    Proof.
      intros Y Y' Ne Ne' WM SM. split; [|intros D; pose proof D as D'; rewrite (al_n _ _ _ _ _ _ A) in D'].
      - destruct (jTmjp_input m s s' b x Ty Hb Wx Sx h h fd td M Y Ne WM SM) as (J & E1 & _ & _ & ->).
        destruct (jTmjp_input m' s s' b x Ty' Hb Wx Sx h' h' fd td M Y' Ne' WM SM) as (J' & E1' & _ & _ & ->).
        rewrite alike_jac_input in E1. assert (J = J') by congruence. now subst J'.
      - destruct (jTmjp_weight_diag m s s' b x Ty Hb Wx Sx h h fd M Y Ne D WM SM) as (J & E1 & _ & _ & ->).
        destruct (jTmjp_weight_diag m' s s' b x Ty' Hb Wx Sx h' h' fd M Y' Ne' D' WM SM) as (J' & E1' & _ & _ & ->).
        rewrite alike_jac_weight in E1 by contradiction. assert (J = J') by congruence. subst J'. now rewrite (al_n _ _ _ _ _ _ A).
    Qed.
    Lemma alike_jmjTp fd td M : fwdable m -> fwdable m' -> nonempty m -> nonempty m' -> wf M -> shape M = metric_shape fd b (numel s) ->
      snd (jmjTp m h x None (VT M) Input fd td false) = snd (jmjTp m' h' x None (VT M) Input fd td false).
    Proof.
      intros Y Y' Ne Ne' WM SM.
      destruct (jmjTp_input m s s' b x Ty Hb Wx Sx h h fd td M Y Ne WM SM) as (J & E1 & _ & _ & ->).
      destruct (jmjTp_input m' s s' b x Ty' Hb Wx Sx h' h' fd td M Y' Ne' WM SM) as (J' & E1' & _ & _ & ->).
      rewrite alike_jac_input in E1. assert (J = J') by congruence. now subst J'.
    Qed.
    Lemma alike_jmjTp_weight fd td M : fwdable m -> fwdable m' -> nonempty m -> nonempty m' -> n_params m <> 0 ->
      (forall p p', p < n_params m -> p' < n_params m -> leaf_at m p = leaf_at m p' <-> leaf_at m' p = leaf_at m' p') ->
      wf M -> shape M = metric_shape fd b (n_params m) ->
      snd (jmjTp m h x None (VT M) Weight fd td false) = snd (jmjTp m' h' x None (VT M) Weight fd td false).
    Proof.
      intros Y Y' Ne Ne' D La WM SM. pose proof D as D'. pose proof SM as SM'. rewrite (al_n _ _ _ _ _ _ A) in D', SM'.
      destruct (jmjTp_weight m s s' b x Ty Hb Wx Sx h h fd td M Y Ne D WM SM) as (J & E1 & _ & _ & ->).
      destruct (jmjTp_weight m' s s' b x Ty' Hb Wx Sx h' h' fd td M Y' Ne' D' WM SM') as (J' & E1' & _ & _ & ->).
      rewrite alike_jac_weight in E1 by contradiction. assert (J = J') by congruence. subst J'. rewrite <- (al_n _ _ _ _ _ _ A). do 2 f_equal.
      apply present_ext. intros. apply push_at_ext; auto. intros p p' Hp Hp'. unfold same_layer.
      destruct (Nat.eqb_spec (leaf_at m p) (leaf_at m p')) as [E|E], (Nat.eqb_spec (leaf_at m' p) (leaf_at m' p')) as [F|F]; auto; exfalso.
      - now apply F, La.
      - now apply E, La.
    Qed.
  End Alike.

  (** *** splicing a nested Sequential *)
  Variables (p a r : list (module K)).
  Notation nested := (Seq true (p ++ Seq true a :: r)).
  Notation spliced := (Seq true (p ++ a ++ r)).
  Lemma splice_fwd (x : T) : fwd nested x = fwd spliced x.
  Proof.
    rewrite !fwd_Seq, !fwd_seq_app. destruct (fwd_seq p x) as [y|]; [|reflexivity]. cbn [bind fwd_seq]. now rewrite fwd_Seq, fwd_seq_app.
  Qed.
  Lemma splice_alike s s' b (x : T) : typed nested s s' -> 0 < b -> wf x -> shape x = b :: s -> alike nested spliced s s' b x.
  Proof.
    intros Ty Hb Wx Sx. inversion Ty as [| |ms ? ? Ts|]; subst. destruct (typed_seq_app_inv _ _ _ _ Ts) as (s1 & Tp & Tr).
    inversion Tr as [|? ? ? s2 ? Ta Tr']; subst. inversion Ta as [| |? ? ? Ta'|]; subst.
    assert (Tar : typed_seq (a ++ r) s1 s') by (eapply typed_seq_app; eauto).
    assert (Ty' : typed spliced s s') by (constructor; eapply typed_seq_app; eauto).
    destruct (typed_fwd_seq BF BPF p s s1 Tp b x Hb Wx Sx) as (y & Ey & Wy & Sy).
    destruct (typed_fwd_seq BF BPF a s1 s2 Ta' b y Hb Wy Sy) as (z & Ez & Wz & Sz).
    assert (N : forall l, n_params (Seq true l : module K) = seq_np l) by reflexivity.
    assert (EX : forall q i j, j < numel s1 -> seq_JX JX (Seq true a :: r) y q i j = seq_JX JX (a ++ r) y q i j).
    { intros q i j Hj. cbn [seq_JX]. rewrite fwd_Seq, Ez, (per_shape z b s2 Sz). symmetry. now apply (seq_JX_app a r s1 s2 s' b). }
    constructor; auto.
    - rewrite !N, !seq_np_app. cbn. unfold seq_np. lia.
    - apply splice_fwd.
    - intros q i j Hq Hi Hj. cbn [JX]. rewrite (seq_JX_app p _ s s1 s' b x y q i j Tp Tr Hb Wx Sx Ey Hj), (seq_JX_app p _ s s1 s' b x y q i j Tp Tar Hb Wx Sx Ey Hj).
      apply bsum_ext. intros k Hk. now rewrite EX.
    - intros q i k Hq Hi Hk. cbn [JW]. rewrite (seq_JW_app p _ s s1 s' b x y q i k Tp Tr Hb Wx Sx Ey), (seq_JW_app p _ s s1 s' b x y q i k Tp Tar Hb Wx Sx Ey).
      destruct (k <? seq_np p); [apply bsum_ext; intros; now rewrite EX|].
      rewrite (seq_JW_app a r s1 s2 s' b y z) by auto. cbn [seq_JW]. rewrite fwd_Seq, Ez, (per_shape z b s2 Sz). reflexivity.
  Qed.

  Lemma Forall_go (P : module K -> Prop) l : (fix go l := match l with [] => True | m :: l => P m /\ go l end) l <-> Forall P l.
  Proof. induction l as [|m l IH]; split; auto; [intros [A B]; constructor; auto; now apply IH|intros A; inversion A; subst; split; auto; now apply IH]. Qed.
  Lemma splice_Forall (P : module K -> Prop) : Forall P (p ++ Seq true a :: r) -> (P (Seq true a) -> Forall P a) -> Forall P (p ++ a ++ r).
  Proof.
    intros A B. apply Forall_app in A. destruct A as [A1 A2]. inversion A2; subst. apply Forall_app. split; auto. apply Forall_app; split; auto.
  Qed.
  Lemma splice_fwdable : fwdable nested -> fwdable spliced.
  Proof. cbn [fwdable]. rewrite !Forall_go. intros A. apply splice_Forall; auto. cbn [fwdable]. now rewrite Forall_go. Qed.
  Lemma splice_sym : all_sym nested -> all_sym spliced.
  Proof. cbn [all_sym]. rewrite !Forall_go. intros A. apply splice_Forall; auto. cbn [all_sym]. now rewrite Forall_go. Qed.
  Lemma splice_skips : skips_param nested -> skips_param spliced.
  Proof. cbn [skips_param]. rewrite !Forall_go. intros A. apply splice_Forall; auto. cbn [skips_param]. now rewrite Forall_go. Qed.
  Lemma splice_nonempty : nonempty nested -> nonempty spliced.
  Proof.
    cbn [nonempty]. rewrite !Forall_go. intros [_ A]. split.
    - apply Forall_app in A. destruct A as [_ A]. inversion A as [|? ? B _]; subst. destruct B as [B _]. destruct a; [congruence|]. destruct p; discriminate.
    - apply splice_Forall; auto. cbn [nonempty]. now rewrite Forall_go.
  Qed.
  Lemma splice_leaf_at k : leaf_at nested k = leaf_at spliced k.
  Proof.
    cbn [leaf_at]. revert k. induction p as [|m l IH]; intros k; cbn [app seq_leaf_at].
    - change (n_params (Seq true a)) with (seq_np a). cbn [leaf_at]. revert k. induction a as [|m l IH]; intros k; cbn [app seq_leaf_at].
      + cbn. now rewrite Nat.sub_0_r.
      + change (seq_np (m :: l)) with (n_params m + seq_np l). specialize (IH (k - n_params m)).
        destruct (Nat.ltb_spec k (n_params m)); [now replace (k <? n_params m + seq_np l) with true by (symmetry; apply Nat.ltb_lt; lia)|].
        rewrite <- IH. destruct (Nat.ltb_spec (k - n_params m) (seq_np l)).
        * now replace (k <? n_params m + seq_np l) with true by (symmetry; apply Nat.ltb_lt; lia).
        * replace (k <? n_params m + seq_np l) with false by (symmetry; apply Nat.ltb_ge; lia). rewrite Nat.sub_add_distr. lia.
    - now rewrite IH.
  Qed.
End Nest.
