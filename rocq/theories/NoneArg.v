(** matrix=None: what every module does with it. *)
From Coq Require Import List Arith ZArith Lia Bool.
From Verif Require Import Scalar Sums Tensor TensorLemmas Conv Abstract Simple LinearLayer ConvLayer PoolLayer Module Spec SpecQ Domain OpLemmas ReshapeLemmas Jac LeafSpec TreeBase TreePull Trees Calls.
Import ListNotations.
Local Open Scope nat_scope.
Local Open Scope list_scope.

(** modules whose mjp and jmp accept matrix=None *)
Definition takes_none {K} (m : module K) : bool :=
  match m with Leaf (Flatten | Reshape _ | L2Norm _ | Custom _) => false | _ => true end.
(** modules whose jTmjp accepts matrix=None: [s'] is the sample shape of the result *)
Definition pulls_none {K} (m : module K) (s' : list nat) (td : bool) : bool :=
  match m with
  | Leaf (L2Norm _ | Custom _) => false
  | Leaf (Conv2d _ _ _) => td
  | Skip _ => Nat.eqb (length s') 1
  | _ => true
  end.
(** modules whose jmjTp accepts matrix=None: [s] is the sample shape of the input *)
Definition pushes_none {K} (m : module K) (s : list nat) (w : wrt) : bool :=
  match m, w with
  | Leaf (L2Norm _ | Custom _), _ => false
  | Seq _ _, Input => Nat.eqb (length s) 1
  | Skip _, Input => false
  | _, _ => true
  end.

Section NoneArg.
  Context {K} `{CR : CRing K}.
  Add Ring Kring : (cring : ring_theory n0 n1 nadd nmul nsub nopp (@eq K)).
  Notation gt := (get (@n0 K _)).
  Notation T := (tensor K).

  Lemma mjp_none (m : module K) h x w : takes_none m = true -> snd (mjp m h x None None w) = snd (jacobian m h x None w).
  Proof.
    destruct m as [l|c|hk ms|F]; intros E; auto; destruct l; try discriminate; auto.
  Qed.
  Lemma jmp_none (m : module K) h x w : takes_none m = true -> w <> Other -> snd (jmp m h x None None w) = snd (jacobian m h x None w).
  Proof. destruct m as [l|c|hk ms|F]; intros E Hw; auto; [destruct l; try discriminate; auto|cbn [jmp]]. destruct w; auto; congruence. Qed.

  Lemma MJ_eye b m n J : MJ b m m n J (identity_metric false b m) = dense b m n J.
  Proof.
    apply tab3_ext. intros q i j Q1 Q2 Q3. unfold identity_metric. erewrite bsum_ext.
    2:{ intros k Hk. rewrite get_tab3 by auto. change (if i =? k then n1 else n0) with (@delta K _ i k). reflexivity. }
    now apply (bsum_delta_l m i (fun k => J q k j)).
  Qed.
  Lemma JM_eye b m n J : JM b m n n J (identity_metric false b n) = dense b m n J.
  Proof.
    apply tab3_ext. intros q i j Q1 Q2 Q3. unfold identity_metric. erewrite bsum_ext.
    2:{ intros k Hk. rewrite get_tab3 by auto. change (if k =? j then n1 else n0) with (@delta K _ k j). reflexivity. }
    now apply (bsum_delta_r n j (fun k => J q i k)).
  Qed.
  Lemma id_shape fd b n : shape (identity_metric fd b n) = metric_shape fd b n. Proof. now destruct fd. Qed.
  Lemma id_wf fd b n : wf (@identity_metric K _ fd b n). Proof. destruct fd; apply wf_tab. Qed.
  Lemma id_metric fd b n q i k : q < b -> i < n -> k < n -> metric fd (@identity_metric K _ fd b n) q i k = delta i k.
  Proof.
    intros. unfold metric, identity_metric. destruct fd; [rewrite get_tab2|rewrite get_tab3]; auto.
  Qed.

  Lemma typed_pos : (forall (m : module K) s s', typed m s s' -> 0 < numel s /\ 0 < numel s') /\ (forall (ms : list (module K)) s s', typed_seq ms s s' -> 0 < numel s /\ 0 < numel s').
  Proof.
    apply typed_both; intros; auto; try tauto.
    - destruct H as (A & B & _). auto.
    - destruct H as (A & B & _). auto.
    - rewrite !numel_cons in *. nia.
  Qed.
  Lemma ones_data b s : data (@ones K _ (b :: s)) = data (@identity_metric K _ true b (numel s)).
  Proof.
    unfold identity_metric, ones, fill_with, tab2, tab. cbn [data].
    assert (E : forall l, map (fun _ : nat => @n1 K _) l = repeat n1 (length l)) by (induction l; cbn; congruence).
    rewrite !E, !seq_length. apply (f_equal (repeat n1)). unfold numel. cbn [fold_right length]. ring.
  Qed.
  Lemma flat_ones b s (t : T) : 0 < b -> shape t = b :: s -> Abstract.flat b (ones (shape t)) = Ok (@identity_metric K _ true b (numel s)).
  Proof. intros Hb ->. rewrite (flat_ok _ b s) by (auto; lia). now rewrite ones_data. Qed.
  Lemma reshape_same sh (t t' : T) : data t = data t' -> numel (shape t) = numel (shape t') -> reshape sh t = reshape sh t'.
  Proof. intros E1 E2. unfold reshape. now rewrite E1, E2. Qed.
  Section At.
    Variables (m : module K) (s s' : list nat) (b : nat) (x : T).
    Hypotheses (Ty : typed m s s') (Hb : 0 < b) (Wx : wf x) (Sx : shape x = b :: s).
    Lemma mjp_eye h h' w : w <> Other -> w = Input \/ is_skip m = false \/ n_params m <> 0 ->
      snd (mjp m h x None (Some (identity_metric false b (numel s'))) w) = snd (jacobian m h' x None w).
    Proof using Ty Hb Wx Sx CR.
      intros Hw Hk. assert (P := proj2 (proj1 typed_pos m s s' Ty)). destruct w; try congruence.
      - destruct (mjp_input m s s' b x Ty Hb Wx Sx h' h _ (identity_metric false b (numel s')) P (id_wf _ _ _) eq_refl) as (J & E & WJ & SJ & ->).
        rewrite E, MJ_eye. do 2 f_equal. symmetry. now apply (tab3_eq n0).
      - destruct (mjp_weight m s s' b x Ty Hb Wx Sx h' h _ (identity_metric false b (numel s')) P (id_wf _ _ _) eq_refl) as [E1 E2].
        destruct (Nat.eq_dec (n_params m) 0) as [Z|Z].
        + rewrite (E2 Z). symmetry. apply (jac_weight0 m s s' b x Ty Hb Wx Sx); auto. intros F ->. destruct Hk as [Hk|[Hk|Hk]]; [discriminate|discriminate|congruence].
        + destruct (E1 Z) as (J & E & WJ & SJ & ->). rewrite E, MJ_eye. do 2 f_equal. symmetry. now apply (tab3_eq n0).
    Qed.
    Lemma jmp_eye h h' w : fwdable m -> w <> Other -> w = Input \/ skips_param m /\ n_params m <> 0 ->
      snd (jmp m h x None (Some (identity_metric false b (match w with Input => numel s | _ => n_params m end))) w) = snd (jacobian m h' x None w).
    Proof using Ty Hb Wx Sx CR.
      intros Fb Hw Hk. assert (P := proj1 (proj1 typed_pos m s s' Ty)).
      destruct w; try congruence.
      - destruct (jmp_input m s s' b x Ty Hb Wx Sx h' h None _ (identity_metric false b (numel s)) Fb (or_introl eq_refl) P (id_wf _ _ _) eq_refl) as (J & E & WJ & SJ & ->).
        rewrite E, JM_eye. do 2 f_equal. symmetry. now apply (tab3_eq n0).
      - destruct Hk as [Hk|[Sp Z]]; [congruence|].
        destruct (jmp_weight m s s' b x Ty Hb Wx Sx h' h None (n_params m) (identity_metric false b (n_params m)) Fb Sp (or_introl eq_refl) (proj1 (Nat.neq_0_lt_0 _) Z) (id_wf _ _ _) eq_refl) as [E1 _].
        destruct (E1 Z) as (J & E & WJ & SJ & ->). rewrite E, JM_eye. do 2 f_equal. symmetry. now apply (tab3_eq n0).
    Qed.


    Lemma pull_none h w fd td : pulls_none m s' td = true ->
      snd (jTmjp m h x None VNone w fd td false) = snd (jTmjp m h x None (VT (identity_metric true b (numel s'))) w true td false).
    Proof using Ty Hb Wx Sx CR.
      intros E. destruct (fwd_total m s s' b x Ty Hb Wx Sx) as (y & Fy & Wy & Sy). destruct m as [l|c|hk ms|F].
      - change (leaf_forward l x = Ok y) in Fy. cbn [jTmjp snd to_opt bind]. f_equal.
        destruct l; try discriminate; cbn [leaf_forward] in Fy; cbn [leaf_jTmjp].
        + unfold lin_jTmjp, lin_val. rewrite Fy. cbn [bind]. inversion Ty as [? ? ? (_ & _ & L)| | |]; subst. destruct s as [|c1 [|]], s' as [|c2 [|]]; try tauto.
          rewrite Sy. change (ones [b; c2]) with (@identity_metric K _ true b c2). now rewrite numel_cons, numel_nil, Nat.mul_1_r.
        + cbn [pulls_none] in E. subst td. unfold conv_jTmjp, conv_val. rewrite Fy. cbn [bind]. destruct w; auto.
          all: inversion Ty as [? ? ? (_ & _ & L)| | |]; subst; unfold conv_ok in L; destruct s as [|c1 [|h1 [|w1 [|]]]], s' as [|c2 [|h2 [|w2 [|]]]]; try tauto.
          all: f_equal; unfold conv_jTmjp_in_dd, conv_jTmjp_w_dd; destruct (unpack4 x) as [[[[? ?] ?] ?]|]; auto; cbn [bind]; unfold unpack4; rewrite Sy; cbn [bind].
          all: assert (R : forall sh, reshape sh (ones [b; c2; h2; w2]) = reshape sh (@identity_metric K _ true b (numel [c2; h2; w2])))
            by (intros sh; apply reshape_same; [apply ones_data|unfold identity_metric; cbn [shape tab2 tab ones fill_with]; rewrite !numel_cons, numel_nil; lia]).
          * now rewrite R.
          * destruct bias; rewrite ?R; auto. cbn [bind]. now rewrite R.
        + unfold ad_jTmjp. unfold size. rewrite Sx. cbn [nth_error bind]. rewrite Fy. cbn [bind]. now rewrite (flat_ones b s' y Hb Sy).
        + unfold id_jTmjp. rewrite Fy. cbn [bind]. unfold size. rewrite Sx. cbn [nth_error bind]. now rewrite (flat_ones b s' y Hb Sy).
        + unfold id_jTmjp. rewrite Fy. cbn [bind]. unfold size. rewrite Sx. cbn [nth_error bind]. now rewrite (flat_ones b s' y Hb Sy).
        + unfold up_jTmjp, up_val. rewrite Fy. cbn [bind]. destruct (unpack4 x) as [[[[b0 ?] ?] ?]|] eqn:U; auto. cbn [bind]. destruct (unpack4 y) as [[[[? ?] ?] ?]|]; auto. cbn [bind].
          assert (b0 = b). { unfold unpack4 in U. rewrite Sx in U. destruct s as [|? [|? [|? [|]]]]; congruence. } subst b0. now rewrite (flat_ones b s' y Hb Sy).
      - cbn [jTmjp ensure]. rewrite forward_eta, Fy. cbn [snd bind to_opt]. f_equal. unfold pool_jTmjp.
        destruct (unpack4 x) as [[[[b0 ?] ?] ?]|] eqn:U; auto. cbn [bind]. destruct (unpack4 y) as [[[[? ?] ?] ?]|]; auto. cbn [bind].
        assert (b0 = b). { unfold unpack4 in U. rewrite Sx in U. destruct s as [|? [|? [|? [|]]]]; congruence. } subst b0. now rewrite (flat_ones b s' y Hb Sy).
      - cbn [jTmjp ensure db_ok negb orb]. rewrite forward_eta, Fy. cbn [bind]. rewrite Sy. reflexivity.
      - cbn [pulls_none] in E. apply Nat.eqb_eq in E. destruct s' as [|n [|]]; try discriminate.
        cbn [jTmjp ensure db_ok negb orb]. rewrite forward_eta, Fy. cbn [bind]. rewrite Sy. change (ones [b; n]) with (@identity_metric K _ true b n).
        replace (numel [n]) with n by (rewrite numel_cons, numel_nil; lia). reflexivity.
    Qed.
    Lemma pull_identity h h' w fd fd' td : pulls_none m s' td = true -> all_sym m -> nonempty m -> w <> Other ->
      snd (jTmjp m h x None VNone w fd td false) = snd (jTmjp m h' x None (VT (identity_metric fd' b (numel s'))) w fd' td false).
    Proof using Ty Hb Wx Sx CR.
      intros E Sy Ne Hw. rewrite (pull_none h w fd td E). destruct w; try congruence.
      - destruct (jTmjp_input m s s' b x Ty Hb Wx Sx h h true td _ Sy Ne (id_wf true b (numel s')) (id_shape _ _ _)) as (J & EJ & _ & _ & ->).
        destruct (jTmjp_input m s s' b x Ty Hb Wx Sx h h' fd' td _ Sy Ne (id_wf fd' b (numel s')) (id_shape _ _ _)) as (J' & EJ' & _ & _ & ->).
        assert (J' = J) by congruence. subst J'. do 2 f_equal. apply present_ext. intros. apply pull_at_ext; auto. intros. now rewrite !id_metric.
      - destruct (jTmjp_weight m s s' b x Ty Hb Wx Sx h h true td _ Sy Ne (id_wf true b (numel s')) (id_shape _ _ _)) as [A1 A2].
        destruct (jTmjp_weight m s s' b x Ty Hb Wx Sx h h' fd' td _ Sy Ne (id_wf fd' b (numel s')) (id_shape _ _ _)) as [B1 B2].
        destruct (Nat.eq_dec (n_params m) 0) as [Z|Z]; [now rewrite A2, B2|].
        destruct (A1 Z) as (J & EJ & _ & _ & ->). destruct (B1 Z) as (J' & EJ' & _ & _ & ->).
        assert (J' = J) by congruence. subst J'. f_equal. apply wval_ext. intros. apply pull_at_ext; auto. intros. now rewrite !id_metric.
    Qed.

    Lemma push_none_arg h w fd td : pushes_none m s w = true -> fwdable m ->
      snd (jmjTp m h x None VNone w fd td false) =
      snd (jmjTp m h x None (VT (identity_metric true b (match w with Input => numel s | _ => n_params m end))) w true td false).
    Proof using Ty Hb Wx Sx CR.
      intros E Fb. destruct (fwd_total m s s' b x Ty Hb Wx Sx) as (y & Fy & Wy & Sy).
      assert (Sz : size 0 x = Ok b) by (unfold size; now rewrite Sx). destruct m as [l|c|hk ms|F].
      - change (leaf_forward l x = Ok y) in Fy. cbn [jmjTp snd to_opt bind]. f_equal.
        destruct l; try discriminate; cbn [leaf_forward] in Fy; cbn [leaf_jmjTp]; try (now destruct Fb).
        + unfold lin_jmjTp, lin_val. rewrite Fy. cbn [bind]. inversion Ty as [? ? ? (_ & _ & L)| | |]; subst. destruct s as [|c1 [|]], s' as [|c2 [|]]; try tauto.
          destruct w; auto.
          * rewrite Sx. change (ones [b; c1]) with (@identity_metric K _ true b c1). now rewrite numel_cons, numel_nil, Nat.mul_1_r.
          * rewrite Sz. reflexivity.
        + unfold ad_jmjTp. rewrite Sz. cbn [bind]. rewrite Fy. cbn [bind]. rewrite (flat_ones b s x Hb Sx). cbn [bind]. destruct w; auto.
        + unfold id_jmjTp. rewrite Sz. cbn [bind]. rewrite (flat_ones b s x Hb Sx). cbn [bind]. destruct w; auto.
        + unfold id_jmjTp. rewrite Sz. cbn [bind]. rewrite (flat_ones b s x Hb Sx). cbn [bind]. destruct w; auto.
      - now destruct Fb.
      - cbn [jmjTp ensure db_ok negb orb]. rewrite forward_eta, Fy. cbn [bind]. destruct w; auto.
        + cbn [pushes_none] in E. apply Nat.eqb_eq in E. destruct s as [|n [|]]; try discriminate. rewrite Sx. change (ones [b; n]) with (@identity_metric K _ true b n).
          replace (numel [n]) with n by (rewrite numel_cons, numel_nil; lia). reflexivity.
        + rewrite Sz. reflexivity.
      - destruct w; try discriminate.
        + inversion Ty as [| | |ms ? ? ? Ts]; subst. remember (Seq true ms) as F. cbn [jmjTp ensure db_ok negb orb]. rewrite forward_eta, Fy. cbn [bind].
          destruct (bind _ _) as [[[[b0 l1] l2] t]|]; auto. subst F. cbn [jmjTp ensure db_ok negb orb]. rewrite Sz. cbn [bind]. reflexivity.
        + inversion Ty as [| | |ms ? ? ? Ts]; subst. remember (Seq true ms) as F. cbn [jmjTp ensure db_ok negb orb]. rewrite forward_eta, Fy. cbn [bind].
          destruct (bind _ _) as [[[[b0 l1] l2] t]|]; auto. subst F. cbn [jmjTp ensure db_ok negb orb]. reflexivity.
    Qed.
    Lemma push_identity h h' w fd fd' td : pushes_none m s w = true -> fwdable m -> nonempty m -> w = Input \/ w = Weight /\ n_params m <> 0 ->
      snd (jmjTp m h x None VNone w fd td false) =
      snd (jmjTp m h' x None (VT (identity_metric fd' b (match w with Input => numel s | _ => n_params m end))) w fd' td false).
    Proof using Ty Hb Wx Sx CR.
      intros E Fb Ne [->|[-> Z]]; rewrite (push_none_arg h _ fd td E Fb).
      - destruct (jmjTp_input m s s' b x Ty Hb Wx Sx h h true td _ Fb Ne (id_wf true b (numel s)) (id_shape _ _ _)) as (J & EJ & _ & _ & ->).
        destruct (jmjTp_input m s s' b x Ty Hb Wx Sx h h' fd' td _ Fb Ne (id_wf fd' b (numel s)) (id_shape _ _ _)) as (J' & EJ' & _ & _ & ->).
        assert (J' = J) by congruence. subst J'. do 2 f_equal. apply present_ext. intros. apply push_at_ext; auto. intros. now rewrite !id_metric.
      - destruct (jmjTp_weight m s s' b x Ty Hb Wx Sx h h true td _ Fb Ne Z (id_wf true b (n_params m)) (id_shape _ _ _)) as (J & EJ & _ & _ & ->).
        destruct (jmjTp_weight m s s' b x Ty Hb Wx Sx h h' fd' td _ Fb Ne Z (id_wf fd' b (n_params m)) (id_shape _ _ _)) as (J' & EJ' & _ & _ & ->).
        assert (J' = J) by congruence. subst J'. do 2 f_equal. apply present_ext. intros. apply push_at_ext; auto. intros. unfold same_layer. now rewrite !id_metric.
    Qed.
  End At.
End NoneArg.
