(** Conv2d outside the supported configurations: a weight product that returns does so only when the
    configuration is supported. *)
From Coq Require Import String Ascii List Arith ZArith Lia Bool.
From Verif Require Import Scalar Sums Tensor TensorLemmas EinsumLemmas Conv Abstract Simple LinearLayer ConvLayer PoolLayer
  Module Spec OpLemmas ReshapeLemmas Jac LeafSpec ConvBase.
Import ListNotations.
Local Open Scope nat_scope.
Local Open Scope list_scope.

Lemma bind_ok {A B} (r : res A) (f : A -> res B) t : bind r f = Ok t -> exists a, r = Ok a /\ f a = Ok t.
Proof. destruct r; cbn; [eauto|discriminate]. Qed.
Lemma check_ok {A} c e (k : res A) t : check c e k = Ok t -> c = true /\ k = Ok t.
Proof. destruct c; cbn; [auto|discriminate]. Qed.
Lemma some_ok {A} (r : res A) t : some r = Ok t -> exists a, r = Ok a /\ t = Some a.
Proof. unfold some. intros H. apply bind_ok in H as (a & -> & E). exists a. split; congruence. Qed.
Lemma reshape_inv {A} s (t u : tensor A) : reshape s t = Ok u -> numel s = numel (shape t) /\ shape u = s.
Proof. unfold reshape. destruct (Nat.eqb_spec (numel s) (numel (shape t))); [|discriminate]. intros E. injection E as <-. auto. Qed.
Lemma reshape_1m_inv {A} s (t u : tensor A) n : reshape_1m s t = Ok u -> numel (shape t) = n * numel s -> shape u = n :: s.
Proof.
  unfold reshape_1m. destruct (Nat.eqb_spec (numel s) 0) as [|Nz]; [discriminate|]. destruct (Nat.eqb_spec (numel (shape t) mod numel s) 0); [|discriminate].
  intros E Q. injection E as <-. cbn [shape]. rewrite Q, Nat.div_mul by auto. reflexivity.
Qed.
Lemma vmap2_inv {A B C} (da : A) (db : B) (dc : C) f a b t : vmap2 da db dc f a b = Ok t -> 0 < dim a 0 ->
  exists u, f (select0 da 0 a) (select0 db 0 b) = Ok u.
Proof.
  unfold vmap2. destruct (Nat.eqb (dim a 0) (dim b 0)); [|discriminate]. intros E Hp. apply bind_ok in E as (ts & E & _).
  destruct (dim a 0) as [|k]; [lia|]. cbn [seq mapM] in E. apply bind_ok in E as (u & E & _). eauto.
Qed.

Section CR.
  Context {K} `{CR : CRing K}.
  Notation gt := (get (@n0 K _)).
  Notation T := (tensor K).

  Lemma loop_rows_inv n s (f : nat -> res T) t : loop_rows n s f = Ok t -> 0 < n -> exists u, f 0 = Ok u.
  Proof.
    unfold loop_rows. destruct n as [|n]; [lia|]. cbn [seq fold_left]. intros E _.
    destruct (f 0) as [u|e] eqn:F; [eauto|]. exfalso. cbn [bind] in E.
    assert (G : forall ks, fold_left (fun acc i => bind acc (fun acc => bind (f i) (fun r => set0 n0 i r acc))) ks (Raise e) = Raise e).
    { induction ks; cbn; auto. }
    rewrite G in E. discriminate.
  Qed.

  Lemma dil_num h1 k p d h2 oh : out_len h1 k 1 p d = Some h2 -> p < k -> out_len h2 h1 1 (k - 1 - p) d = Some oh ->
    0 < d /\ 0 < h1 /\ 0 < oh <= k /\ (oh = k -> d = 1 \/ (k = 1 /\ h1 = 1)).
  Proof.
    unfold out_len. rewrite !Nat.div_1_r. intros E1 Hp E2.
    destruct ((0 <? k) && (0 <? 1) && (0 <? d) && (d * (k - 1) + 1 <=? h1 + 2 * p)) eqn:C1; [|discriminate].
    destruct ((0 <? h1) && (0 <? 1) && (0 <? d) && (d * (h1 - 1) + 1 <=? h2 + 2 * (k - 1 - p))) eqn:C2; [|discriminate].
    apply andb_prop in C1 as [C1 L1]. apply andb_prop in C1 as [C1 D]. apply andb_prop in C1 as [Pk _].
    apply andb_prop in C2 as [C2 L2]. apply andb_prop in C2 as [C2 _]. apply andb_prop in C2 as [Ph _].
    apply Nat.ltb_lt in Pk, Ph, D. apply Nat.leb_le in L1, L2.
    assert (E1' : h2 = h1 + 2 * p - (d * (k - 1) + 1) + 1) by congruence.
    assert (E2' : oh = h2 + 2 * (k - 1 - p) - (d * (h1 - 1) + 1) + 1) by congruence. clear E1 E2.
    split; [exact D|]. split; [exact Ph|]. destruct d as [|[|d]]; [lia| |].
    - split; [lia|]. auto.
    - destruct k as [|k]; [lia|]. destruct h1 as [|h1]; [lia|]. cbn [Nat.sub] in *. rewrite ?Nat.sub_0_r in *.
      assert (oh + S (S d) * h1 + d * k = h1 + 1) by nia. assert (oh = 1) by nia. assert (h1 = 0) by nia.
      split; [lia|]. intros; right; lia.
  Qed.

  Definition supported (cfg : conv_cfg) (W : T) (c1 h1 w1 : nat) : Prop :=
    0 < c1 /\ 0 < h1 /\ 0 < w1 /\ cgroups cfg = 1 /\ fst (cpad cfg) < kh W /\ snd (cpad cfg) < kw W /\
    dil_ok (fst (cdil cfg)) (kh W) h1 /\ dil_ok (snd (cdil cfg)) (kw W) w1.

  Section C.
    Variables (cfg : conv_cfg) (W : T) (bias : option T) (x y : T) (b c1 h1 w1 b' c2 h2 w2 : nat) (val : option T).
    Hypothesis (Hst : cstride cfg = (1, 1)) (Hf : conv_forward cfg W bias x = Ok y).
    Hypothesis (Hb : 0 < b) (Sx : shape x = [b; c1; h1; w1]) (Sy : shape y = [b'; c2; h2; w2]).
    Hypothesis (Hval : val = None \/ val = Some y).
    Notation KH := (kh W).
    Notation KW := (kw W).

    Lemma fwd_inv : out_len h1 KH 1 (fst (cpad cfg)) (fst (cdil cfg)) = Some h2 /\
      out_len w1 KW 1 (snd (cpad cfg)) (snd (cdil cfg)) = Some w2 /\ 0 < c2 /\ 0 < h2 /\ 0 < w2 /\ b' = b.
    Proof.
      unfold conv_forward, conv2d_mode in Hf. rewrite Sx in Hf. destruct (shape W) as [|o [|cg [|k1 [|k2 [|? ?]]]]] eqn:SW; try discriminate.
      apply check_ok in Hf as [C1 E]. apply check_ok in E as [_ E]. apply check_ok in E as [_ E].
      rewrite Hst in E. cbn [fst snd] in E. unfold kh, kw, dim. rewrite SW. cbn [nth].
      destruct (out_len h1 k1 1 (fst (cpad cfg)) (fst (cdil cfg))) as [h2'|] eqn:O1; [|discriminate].
      destruct (out_len w1 k2 1 (snd (cpad cfg)) (snd (cdil cfg))) as [w2'|] eqn:O2; [|discriminate].
      assert (Ey := f_equal (fun r => match r with Ok t => shape t | Raise _ => [] end) E). cbn [shape tab4 tab] in Ey. rewrite Sy in Ey.
      injection Ey as -> -> -> ->. apply andb_prop in C1 as [_ C1]. apply Nat.ltb_lt in C1.
      unfold out_len in O1, O2. repeat split; auto.
      - destruct (_ && _ && _ && _) in O1; [|discriminate]. injection O1 as <-. lia.
      - destruct (_ && _ && _ && _) in O2; [|discriminate]. injection O2 as <-. lia.
    Qed.

    Lemma dw_inv a rx r N C : shape a = [N; 1; h2; w2] -> shape rx = [C; 1; h1; w1] -> 0 < N ->
      dw_conv cfg W a rx = Ok r -> numel (shape r) = N * C * KH * KW -> supported cfg W C h1 w1.
    Proof.
      intros Sa Sr HN E Nr. unfold dw_conv, conv2d, dw_padding, compute_reversed_padding in E.
      destruct fwd_inv as (O1 & O2 & _).
      apply check_ok in E as [P E]. cbn [fst snd] in P, E. apply andb_prop in P as [P1 P2]. apply Z.leb_le in P1, P2.
      assert (ph : fst (cpad cfg) < KH) by lia. assert (pw : snd (cpad cfg) < KW) by lia.
      replace (Z.to_nat (Z.of_nat KH - 1 - Z.of_nat (fst (cpad cfg)))) with (KH - 1 - fst (cpad cfg)) in E by lia.
      replace (Z.to_nat (Z.of_nat KW - 1 - Z.of_nat (snd (cpad cfg)))) with (KW - 1 - snd (cpad cfg)) in E by lia.
      unfold conv2d_mode in E. rewrite Sa, Sr, Hst in E. cbn [fst snd pad_ok andb] in E.
      apply check_ok in E as [G E]. apply check_ok in E as [_ E]. apply check_ok in E as [_ E].
      apply andb_prop in G as [G HC]. apply andb_prop in G as [G _]. apply andb_prop in G as [G1 G].
      apply Nat.ltb_lt in G1, HC. apply Nat.eqb_eq in G.
      destruct (out_len h2 h1 1 (KH - 1 - fst (cpad cfg)) (fst (cdil cfg))) as [oh|] eqn:O3; [|discriminate].
      destruct (out_len w2 w1 1 (KW - 1 - snd (cpad cfg)) (snd (cdil cfg))) as [ow|] eqn:O4; [|discriminate].
      destruct (dil_num _ _ _ _ _ _ O1 ph O3) as (D1 & P1' & L1 & I1). destruct (dil_num _ _ _ _ _ _ O2 pw O4) as (D2 & P2' & L2 & I2).
      injection E as <-. cbn [shape tab4 tab] in Nr. rewrite !numel_cons, numel_nil in Nr.
      assert (Q : N * C * (oh * ow) = N * C * (KH * KW)) by (rewrite !Nat.mul_assoc; rewrite !Nat.mul_assoc, Nat.mul_1_r in Nr; exact Nr).
      apply Nat.mul_cancel_l in Q; [|nia]. assert (oh = KH) by nia. assert (ow = KW) by nia.
      unfold supported, dil_ok. repeat split; auto; lia.
    Qed.

    Lemma val_inv v : conv_val cfg W bias x val = Ok v -> v = y.
    Proof. unfold conv_val. destruct Hval as [-> | ->]; congruence. Qed.
    Lemma unpack_inv (t : T) a1 a2 a3 a4 p : shape t = [a1; a2; a3; a4] -> unpack4 t = Ok p -> p = (a1, a2, a3, a4).
    Proof. unfold unpack4. intros -> E. congruence. Qed.

    Lemma rx_shape (t : T) : shape t = [b; c1; h1; w1] -> shape (movedim n0 [0%Z] [1%Z] (unsqueeze0 (select0 n0 0 t))) = [c1; 1; h1; w1].
    Proof. intros S. unfold movedim, permute, rank, unsqueeze0, select0. cbn [shape tab]. rewrite S. reflexivity. Qed.
    Lemma row_shape k (t u : T) s : shape t = s -> k < length s -> slice n0 k 0 (0 + 1) t = Ok u -> 0 < nth k s 0 -> shape u = set_nth k 1 s.
    Proof.
      intros S L E P. unfold slice in E. destruct (k <? rank t); [|discriminate]. injection E as <-. cbn [shape tab]. rewrite S.
      f_equal. unfold dim. rewrite S. cbn [Nat.add Nat.min]. destruct (nth k s 0); [lia|reflexivity].
    Qed.
    Lemma flip_shape d (t : T) : shape (flip n0 d t) = shape t. Proof. reflexivity. Qed.
    Lemma mv01 (t : T) a1 a2 a3 a4 : shape t = [a1; a2; a3; a4] -> shape (movedim n0 [0%Z] [1%Z] t) = [a2; a1; a3; a4].
    Proof. intros S. unfold movedim, permute, rank. rewrite S. cbn. unfold dim. rewrite ?S. reflexivity. Qed.
    Lemma mv01_5 (t : T) a1 a2 a3 a4 a5 : shape t = [a1; a2; a3; a4; a5] -> shape (movedim n0 [0%Z] [1%Z] t) = [a2; a1; a3; a4; a5].
    Proof. intros S. unfold movedim, permute, rank. rewrite S. cbn. unfold dim. rewrite ?S. reflexivity. Qed.
    Lemma mv123_5 (t : T) a1 a2 a3 a4 a5 : shape t = [a1; a2; a3; a4; a5] -> shape (movedim n0 [1; 2; 3]%Z [-3; -2; -1]%Z t) = [a1; a5; a2; a3; a4].
    Proof. intros S. unfold movedim, permute, rank. rewrite S. cbn. unfold dim. rewrite ?S. reflexivity. Qed.
    Lemma mv123_4 (t : T) a1 a2 a3 a4 : shape t = [a1; a2; a3; a4] -> shape (movedim n0 [1; 2; 3]%Z [-3; -2; -1]%Z t) = [a1; a2; a3; a4].
    Proof. intros S. unfold movedim, permute, rank. rewrite S. cbn. unfold dim. rewrite ?S. reflexivity. Qed.

    Lemma vjp_supported v r : conv_vjp cfg W bias x val v Weight = Ok r -> supported cfg W c1 h1 w1.
    Proof.
      destruct fwd_inv as (O1 & O2 & Hc2 & Hh2 & Hw2 & Eb).
      intros E. unfold conv_vjp in E. apply bind_ok in E as (y' & Ey & E). apply val_inv in Ey. subst y'.
      apply bind_ok in E as (p & Ep & E). apply (unpack_inv x b c1 h1 w1) in Ep; auto. subst p.
      apply bind_ok in E as (p & Ep & E). apply (unpack_inv y b' c2 h2 w2) in Ep; auto. subst p.
      apply check_ok in E as [Sv E]. apply bind_ok in E as (bt & _ & E). apply bind_ok in E as (btm & _ & E).
      apply bind_ok in E as (v' & Ev & E). apply reshape_inv in Ev as [_ Sv'].
      apply bind_ok in E as (vJ & E & _). destruct (cvmap cfg).
      - apply vmap2_inv in E as (u & E); [|unfold dim; rewrite flip_shape, Sx; auto].
        apply bind_ok in E as (vi & Ei & E). apply bind_ok in E as (dr & Ed & E). apply reshape_inv in E as [E _].
        apply (reshape_1m_inv _ _ _ c2) in Ei.
        2:{ rewrite (mv01 _ 1 c2 h2 w2) by (unfold unsqueeze0, select0; cbn [shape tab]; rewrite flip_shape, Sv'; reflexivity). numels; ring. }
        eapply dw_inv; [exact Ei|apply rx_shape; rewrite flip_shape; exact Sx|auto|exact Ed|]. rewrite <- E. numels; ring.
      - apply loop_rows_inv in E as (u & E); auto.
        apply bind_ok in E as (xi & Exi & E). apply bind_ok in E as (vi0 & Ev0 & E). apply bind_ok in E as (vi & Ei & E).
        apply bind_ok in E as (dr & Ed & E). apply reshape_inv in E as [E _].
        apply (row_shape 0 _ _ _ Sx) in Exi; [|cbn; lia|cbn; lia]. cbn [set_nth] in Exi.
        assert (Sm : shape (movedim n0 [0%Z] [1%Z] (flip n0 [-2; -1]%Z v')) = [c2; b; h2; w2]) by (apply mv01; rewrite flip_shape; exact Sv').
        apply (row_shape 1 _ _ _ Sm) in Ev0; [|cbn; lia|cbn; lia]. cbn [set_nth] in Ev0.
        apply (reshape_1m_inv _ _ _ c2) in Ei; [|rewrite Ev0; numels; ring].
        eapply dw_inv; [exact Ei|apply mv01; rewrite flip_shape; exact Exi|auto|exact Ed|]. rewrite <- E. numels; ring.
    Qed.

    Lemma single_inv rows (m rx u : T) : shape m = [c2; 1; h2; w2; rows] -> shape rx = [c1; 1; h1; w1] -> 0 < rows -> 0 < c2 ->
      conv_mjp_single cfg W c1 c2 h2 w2 rows m rx = Ok u -> supported cfg W c1 h1 w1.
    Proof.
      intros Sm Sr Hr Hc E. unfold conv_mjp_single in E. apply bind_ok in E as (m' & Em & E). apply bind_ok in E as (r & Er & E).
      apply bind_ok in E as (r' & Er' & _). apply reshape_inv in Er' as [Er' _].
      apply (reshape_1m_inv _ _ _ (c2 * rows)) in Em; [|rewrite (mv123_5 _ _ _ _ _ _ Sm); numels; ring].
      eapply dw_inv; [exact Em|exact Sr|nia|exact Er|]. rewrite <- Er'. numels; ring.
    Qed.
    Lemma mv_last (t : T) a1 a2 a3 : shape t = [a1; a2; a3] -> shape (movedim n0 [-1]%Z [-2]%Z t) = [a1; a3; a2].
    Proof. intros S. unfold movedim, permute, rank. rewrite S. cbn. unfold dim. rewrite ?S. reflexivity. Qed.

    Lemma mjp_supported m r : (exists rows, nth_error (shape m) 1 = Some rows /\ 0 < rows) ->
      conv_mjp_some cfg W bias x y m Weight = Ok r -> supported cfg W c1 h1 w1.
    Proof.
      destruct fwd_inv as (O1 & O2 & Hc2 & Hh2 & Hw2 & Eb).
      intros (rows & Hn & Hr) E. unfold conv_mjp_some in E.
      apply bind_ok in E as (p & Ep & E). apply (unpack_inv x b c1 h1 w1) in Ep; auto. subst p.
      apply bind_ok in E as (p & Ep & E). apply (unpack_inv y b' c2 h2 w2) in Ep; auto. subst p.
      apply bind_ok in E as (rows' & Es & E). unfold size in Es. rewrite Hn in Es. injection Es as <-.
      apply check_ok in E as [Sm E]. apply bind_ok in E as (mr & Em & E). apply reshape_inv in Em as [_ Smr].
      apply bind_ok in E as (mJ & E & _). destruct (cvmap cfg).
      - apply vmap2_inv in E as (u & E); [|unfold dim; rewrite flip_shape, Sx; auto].
        eapply single_inv; [| |exact Hr|exact Hc2|exact E].
        + apply mv01_5. unfold unsqueeze0, select0. cbn [shape tab]. rewrite flip_shape, Smr. reflexivity.
        + apply rx_shape. rewrite flip_shape. exact Sx.
      - apply loop_rows_inv in E as (u & E); auto.
        apply bind_ok in E as (xi & Exi & E). apply bind_ok in E as (mi & Emi & E).
        apply (row_shape 0 _ _ _ Sx) in Exi; [|cbn; lia|cbn; lia]. cbn [set_nth] in Exi.
        assert (Sm' : shape (movedim n0 [0%Z] [1%Z] (flip n0 [-3; -2]%Z mr)) = [c2; b; h2; w2; rows]) by (apply mv01_5; rewrite flip_shape; exact Smr).
        apply (row_shape 1 _ _ _ Sm') in Emi; [|cbn; lia|cbn; lia]. cbn [set_nth] in Emi.
        eapply single_inv; [exact Emi|apply mv01; rewrite flip_shape; exact Exi|exact Hr|exact Hc2|exact E].
    Qed.

    Lemma full_inv (xi mi u : T) : shape xi = [1; c1; h1; w1] -> shape mi = [1; c2 * h2 * w2; c2 * h2 * w2] ->
      0 < c2 -> 0 < h2 -> 0 < w2 -> conv_full_single cfg W bias c1 c2 h2 w2 xi mi = Ok u -> supported cfg W c1 h1 w1.
    Proof.
      intros Sxi Smi Hc2 Hh2 Hw2 E. unfold conv_full_single in E.
      apply bind_ok in E as (m & Em & E). apply reshape_inv in Em as [_ Sm].
      apply bind_ok in E as (r & Er & _). unfold conv_half in Er. apply bind_ok in Er as (r' & Er & _).
      eapply single_inv; [| | |exact Hc2|exact Er].
      - apply mv01_5. rewrite flip_shape. exact Sm.
      - apply mv01. rewrite flip_shape. exact Sxi.
      - repeat apply Nat.mul_pos_pos; auto.
    Qed.
    Lemma wfull_supported m r : conv_jTmjp_w_full cfg W bias x y m = Ok r -> supported cfg W c1 h1 w1.
    Proof.
      destruct fwd_inv as (O1 & O2 & Hc2 & Hh2 & Hw2 & Eb).
      intros E. unfold conv_jTmjp_w_full in E.
      apply bind_ok in E as (p & Ep & E). apply (unpack_inv x b c1 h1 w1) in Ep; auto. subst p.
      apply bind_ok in E as (p & Ep & E). apply (unpack_inv y b' c2 h2 w2) in Ep; auto. subst p.
      apply check_ok in E as [Sm E]. apply shape_eqb_true in Sm. destruct (cvmap cfg).
      - apply vmap2_inv in E as (u & E); [|unfold dim; rewrite Sx; auto].
        eapply full_inv; [| | | | |exact E]; auto.
        + unfold unsqueeze0, select0. cbn [shape tab]. now rewrite Sx.
        + unfold unsqueeze0, select0. cbn [shape tab]. now rewrite Sm.
      - apply loop_rows_inv in E as (u & E); auto.
        apply bind_ok in E as (xi & Exi & E). apply bind_ok in E as (mi & Emi & E).
        apply (row_shape 0 _ _ _ Sx) in Exi; [|cbn; lia|cbn; lia]. cbn [set_nth] in Exi.
        apply (row_shape 0 _ _ _ Sm) in Emi; [|cbn; lia|cbn; lia]. cbn [set_nth] in Emi.
        eapply full_inv; [exact Exi|exact Emi| | | |exact E]; auto.
    Qed.
    Lemma dd_inv (wsq m u : T) : shape wsq = [c1; 1; h1; w1] -> shape m = [c2; 1; h2; w2] -> 0 < c2 ->
      conv_dd_single cfg W c1 c2 h2 w2 wsq m = Ok u -> supported cfg W c1 h1 w1.
    Proof.
      intros Sw Sm Hc2 E. unfold conv_dd_single in E. apply bind_ok in E as (m' & Em & E). apply bind_ok in E as (r & Er & E).
      apply bind_ok in E as (r' & Er' & _). apply reshape_inv in Er' as [Er' _].
      apply (reshape_1m_inv _ _ _ c2) in Em; [|rewrite (mv123_4 _ _ _ _ _ Sm); numels; ring].
      eapply dw_inv; [exact Em|exact Sw|auto|exact Er|]. rewrite <- Er'. numels; ring.
    Qed.
    Lemma wdd_supported m r : conv_jTmjp_w_dd cfg W bias x y m = Ok r -> supported cfg W c1 h1 w1.
    Proof.
      destruct fwd_inv as (O1 & O2 & Hc2 & Hh2 & Hw2 & Eb).
      intros E. unfold conv_jTmjp_w_dd in E.
      apply bind_ok in E as (p & Ep & E). apply (unpack_inv x b c1 h1 w1) in Ep; auto. subst p.
      apply bind_ok in E as (p & Ep & E). apply (unpack_inv y b' c2 h2 w2) in Ep; auto. subst p.
      apply bind_ok in E as ([m' bt] & _ & E). apply bind_ok in E as (m2 & Em & E). apply reshape_inv in Em as [_ Sm].
      apply bind_ok in E as (rr & E & _). destruct (cvmap cfg).
      - apply vmap2_inv in E as (u & E); [|unfold dim; change (shape (sq (flip n0 [-3; -2; -1]%Z x))) with (shape x); rewrite Sx; auto].
        eapply dd_inv; [| |exact Hc2|exact E].
        + apply rx_shape. exact Sx.
        + apply mv01. unfold unsqueeze0, select0. cbn [shape tab]. now rewrite flip_shape, Sm.
      - apply loop_rows_inv in E as (u & E); auto.
        apply bind_ok in E as (ws & Ews & E). apply bind_ok in E as (mi & Emi & E).
        assert (Sm' : shape (movedim n0 [0%Z] [1%Z] (flip n0 [-3; -2; -1]%Z m2)) = [c2; b; h2; w2]) by (apply mv01; rewrite flip_shape; exact Sm).
        assert (Sx' : shape (movedim n0 [0%Z] [1%Z] (sq (flip n0 [-3; -2; -1]%Z x))) = [c1; b; h1; w1]) by (apply mv01; exact Sx).
        apply (row_shape 1 _ _ _ Sx') in Ews; [|cbn; lia|cbn; lia]. cbn [set_nth] in Ews.
        apply (row_shape 1 _ _ _ Sm') in Emi; [|cbn; lia|cbn; lia]. cbn [set_nth] in Emi.
        eapply dd_inv; [exact Ews|exact Emi|exact Hc2|exact E].
    Qed.

    (** every weight product that returns *)
    Lemma jTmjp_supported mat fd td db r : conv_jTmjp cfg W bias x val mat Weight fd td db = Ok r -> supported cfg W c1 h1 w1.
    Proof.
      intros E. unfold conv_jTmjp in E. apply bind_ok in E as (y' & Ey & E). apply val_inv in Ey. subst y'.
      destruct (match mat with Some m => (m, fd) | None => (ones (shape y), true) end) as [m f].
      destruct f, td; apply some_ok in E as (u & E & _).
      - now apply wdd_supported in E.
      - apply bind_ok in E as (d & _ & E). now apply wfull_supported in E.
      - apply bind_ok in E as (d & E & _). now apply wfull_supported in E.
      - now apply wfull_supported in E.
    Qed.
    Lemma jacobian_supported r : conv_jacobian cfg W bias x val Weight = Ok r -> supported cfg W c1 h1 w1.
    Proof.
      destruct fwd_inv as (O1 & O2 & Hc2 & Hh2 & Hw2 & Eb).
      intros E. unfold conv_jacobian in E. apply bind_ok in E as (y' & Ey & E). apply val_inv in Ey. subst y'.
      apply bind_ok in E as (p & Ep & E). apply (unpack_inv y b' c2 h2 w2) in Ep; auto. subst p.
      apply bind_ok in E as (m & Em & E). cbn in Em. injection Em as <-.
      eapply mjp_supported; [|exact E]. exists (c2 * h2 * w2). split; [reflexivity|]. repeat apply Nat.mul_pos_pos; auto.
    Qed.
    Lemma mjp_supported' mat r : match mat with Some m => exists rows, nth_error (shape m) 1 = Some rows /\ 0 < rows | None => True end ->
      conv_mjp cfg W bias x val mat Weight = Ok r -> supported cfg W c1 h1 w1.
    Proof.
      intros Hm E. unfold conv_mjp in E. apply bind_ok in E as (y' & Ey & E). apply val_inv in Ey. subst y'.
      destruct mat as [m|]; [now apply mjp_supported in E|].
      unfold conv_jacobian in E. apply bind_ok in E as (y' & Ey & E). cbn [conv_val] in Ey. injection Ey as <-.
      destruct fwd_inv as (O1 & O2 & Hc2 & Hh2 & Hw2 & Eb).
      apply bind_ok in E as (p & Ep & E). apply (unpack_inv y b' c2 h2 w2) in Ep; auto. subst p.
      apply bind_ok in E as (m & Em & E). cbn in Em. injection Em as <-.
      eapply mjp_supported; [|exact E]. exists (c2 * h2 * w2). split; [reflexivity|]. repeat apply Nat.mul_pos_pos; auto.
    Qed.
  End C.
End CR.

Lemma stride_rejected cfg : cstride cfg <> (1, 1) -> conv_init_ok cfg = Raise ValueError.
Proof.
  intros H. unfold conv_init_ok. destruct (cstride cfg) as [a c]. cbn [fst snd].
  destruct (Nat.eqb_spec a 1), (Nat.eqb_spec c 1); subst; auto. congruence.
Qed.
Lemma init_stride cfg : conv_init_ok cfg = Ok tt -> cstride cfg = (1, 1).
Proof.
  unfold conv_init_ok. destruct (cstride cfg) as [a c]. cbn [fst snd]. destruct (Nat.eqb_spec a 1), (Nat.eqb_spec c 1); subst; auto; discriminate.
Qed.
