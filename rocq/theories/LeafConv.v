(** Conv2d satisfies the layer specifications (stride 1, dilation 1, one group, zero padding smaller than
    the kernel), on both code paths. *)
From Coq Require Import String Ascii List Arith ZArith Lia Bool.
From Verif Require Import Scalar Sums Tensor TensorLemmas EinsumLemmas Conv Abstract Simple LinearLayer ConvLayer PoolLayer
  Module Spec OpLemmas ReshapeLemmas Jac LeafSpec LeafSimple LeafUpsample ConvBase.
Import ListNotations.
Local Open Scope nat_scope.
Local Open Scope list_scope.

Section LC.
  Context {K} `{CR : CRing K}.
  Add Ring Kring : (cring : ring_theory n0 n1 nadd nmul nsub nopp (@eq K)).
  Notation gt := (get (@n0 K _)).
  Notation T := (tensor K).

  Section C.
    Variables (cfg : conv_cfg) (W : T) (bias : option T) (c1 c2 h1 w1 h2 w2 KH KW ph pw b : nat) (x : T).
    Hypothesis (Wx : wf x) (Sx : shape x = [b; c1; h1; w1]) (WW : wf W) (SW : shape W = [c2; c1; KH; KW]).
    Hypothesis (Bo : bias_ok bias c2).
    Hypothesis (Hst : cstride cfg = (1, 1)) (Hdi : dil_ok (fst (cdil cfg)) KH h1 /\ dil_ok (snd (cdil cfg)) KW w1) (Hgr : cgroups cfg = 1).
    Hypothesis (Hmo : cmode cfg = PZeros \/ cpad cfg = (0, 0)).
    Hypothesis (Hpa : cpad cfg = (ph, pw)) (Hph : ph < KH) (Hpw : pw < KW).
    Hypothesis (Hh : h2 + KH = h1 + 2 * ph + 1) (Hw : w2 + KW = w1 + 2 * pw + 1).
    Hypothesis (Hb : 0 < b) (Hc1 : 0 < c1) (Hc2 : 0 < c2) (Hh1 : 0 < h1) (Hw1 : 0 < w1) (Hh2 : 0 < h2) (Hw2 : 0 < w2).
    Let D1 := c1 * h1 * w1.
    Let D2 := c2 * h2 * w2.
    Let NW := c2 * c1 * KH * KW.
    Let np := conv_n_params W bias.
    Let JXc (V : T) := conv_JX V KH KW ph pw h1 w1 h2 w2.
    Let JWc := conv_JW x c1 c2 KH KW ph pw h1 w1 h2 w2.

    Lemma khE : kh W = KH. Proof. unfold kh, dim. now rewrite SW. Qed.
    Lemma kwE : kw W = KW. Proof. unfold kw, dim. now rewrite SW. Qed.
    Lemma npE : np = NW + match bias with Some _ => c2 | None => 0 end.
    Proof. unfold np, conv_n_params, NW, dim. rewrite SW. cbn [nth]. destruct bias; numels; ring. Qed.

    Lemma biasE : bias = None \/ exists t, bias = Some t.
    Proof. destruct bias; eauto. Qed.
    Lemma NWE : c2 * c1 * kh W * kw W = NW. Proof. now rewrite khE, kwE. Qed.
    Lemma cpg (N : nat) : c2 mod 1 =? 0 = true.
    Proof. apply Nat.eqb_eq. apply Nat.mod_1_r. Qed.
    Lemma out_len1 n k p d : 0 < k -> k <= n + 2 * p -> 0 < d -> d = 1 \/ k = 1 -> out_len n k 1 p d = Some (n + 2 * p - k + 1).
    Proof.
      intros Hk L Hd D. unfold out_len. replace (d * (k - 1)) with (k - 1) by (destruct D as [-> | ->]; lia).
      replace ((0 <? k) && (0 <? 1) && (0 <? d) && (k - 1 + 1 <=? n + 2 * p)) with true.
      2:{ symmetry. repeat (apply andb_true_intro; split); try (apply Nat.ltb_lt; lia). apply Nat.leb_le. lia. }
      f_equal. rewrite Nat.div_1_r. lia.
    Qed.
    (** the dilated offsets are the plain ones *)
    Lemma dil_off d k n u : dil_ok d k n -> u < k -> u * d = u.
    Proof. intros (P & [-> | [-> _]]) Hu; [lia|]. assert (u = 0) as -> by lia. reflexivity. Qed.
    Lemma dil_off' d k n u : dil_ok d k n -> u < n -> u * d = u.
    Proof. intros (P & [-> | [_ ->]]) Hu; [lia|]. assert (u = 0) as -> by lia. reflexivity. Qed.
    Lemma pget_nopad m n c y x0 : m = PZeros \/ (ph, pw) = (0, 0) -> y < h1 + 2 * ph -> x0 < w1 + 2 * pw ->
      pget m x h1 w1 ph pw n c y x0 = pget PZeros x h1 w1 ph pw n c y x0.
    Proof.
      intros [->|E] Hy Hx; [reflexivity|]. injection E as E1 E2. unfold pget, pad_src.
      destruct (Nat.leb_spec ph y), (Nat.ltb_spec y (h1 + ph)), (Nat.leb_spec pw x0), (Nat.ltb_spec x0 (w1 + pw)); try lia. reflexivity.
    Qed.
    Lemma pad_ok_nopad m : m = PZeros \/ (ph, pw) = (0, 0) -> pad_ok m h1 ph && pad_ok m w1 pw = true.
    Proof.
      intros [->|E]; [reflexivity|]. injection E as -> ->. destruct m; cbn [pad_ok]; auto.
      - now rewrite !(proj2 (Nat.ltb_lt _ _)) by auto.
      - now rewrite !orb_true_r.
    Qed.

    Lemma conv_fwd_ok : conv_forward cfg W bias x = Ok (tab4 b c2 h2 w2 (fun n o y x0 =>
      let s := bsum c1 (fun c => bsum KH (fun u => bsum KW (fun v =>
        nmul (pget PZeros x h1 w1 ph pw n c (y + u) (x0 + v)) (gt W [o; c; u; v])))) in
      match bias with None => s | Some t => nadd s (gt t [o]) end)).
    Proof.
      destruct Hdi as [Dh Dw]. destruct (cdil cfg) as [dh dw] eqn:Hdl. cbn [fst snd] in Dh, Dw.
      unfold conv_forward, conv2d_mode. rewrite Hpa in Hmo. rewrite Sx, SW, Hst, Hdl, Hgr, Hpa. cbn [fst snd].
      rewrite !out_len1 by (destruct Dh, Dw; lia).
      replace (h1 + 2 * ph - KH + 1) with h2 by lia. replace (w1 + 2 * pw - KW + 1) with w2 by lia.
      assert (E : ((0 <? 1) && (c1 =? 1 * c1) && (c2 mod 1 =? 0) && (0 <? c2)) = true).
      { repeat (apply andb_true_intro; split); try (apply Nat.ltb_lt; lia). apply Nat.eqb_eq; lia. apply (cpg 0). }
      rewrite E. clear E. cbn [check].
      assert (E : match bias with None => true | Some t => shape_eqb (shape t) [c2] end = true).
      { destruct bias as [t|]; auto. destruct Bo as [S _]. rewrite S. apply shape_eqb_refl. }
      rewrite E. rewrite (pad_ok_nopad _ Hmo). cbn [check]. f_equal. apply tab4_ext. intros n o y0 x0 Hn Ho Hy Hx0.
      rewrite Nat.div_1_r. rewrite (Nat.div_small o c2) by auto. cbn zeta.
      assert (Q : bsum c1 (fun c => bsum KH (fun u => bsum KW (fun v => nmul
        (pget (cmode cfg) x h1 w1 ph pw n (0 * c1 + c) (y0 * 1 + u * dh) (x0 * 1 + v * dw)) (gt W [o; c; u; v])))) =
        bsum c1 (fun c => bsum KH (fun u => bsum KW (fun v =>
        nmul (pget PZeros x h1 w1 ph pw n c (y0 + u) (x0 + v)) (gt W [o; c; u; v]))))).
      { apply bsum_ext; intros c Hc; apply bsum_ext; intros u Hu; apply bsum_ext; intros v Hv.
        rewrite (dil_off _ _ _ u Dh Hu), (dil_off _ _ _ v Dw Hv), !Nat.mul_1_r, (pget_nopad (cmode cfg)) by (auto; lia). reflexivity. }
      now rewrite Q.
    Qed.

    Lemma tout_len1 n k p m d : 0 < n -> 0 < k -> 0 < m -> n + k = m + 2 * p + 1 -> 0 < d -> d = 1 \/ k = 1 -> tout_len n k 1 p d = Some m.
    Proof.
      intros Hn Hk Hm E Hd D. unfold tout_len. replace (d * (k - 1)) with (k - 1) by (destruct D as [-> | ->]; lia).
      replace ((0 <? n) && (0 <? k) && (0 <? 1) && (0 <? d) && (2 * p <? (n - 1) * 1 + (k - 1) + 1)) with true.
      2:{ symmetry. repeat (apply andb_true_intro; split); apply Nat.ltb_lt; lia. }
      f_equal. lia.
    Qed.
    (** sum over the outputs *)
    Lemma JX_sum V n (f : nat -> K) c y1 x1 : c < c1 -> y1 < h1 -> x1 < w1 ->
      bsum D2 (fun i => nmul (f i) (JXc V n i (chw h1 w1 c y1 x1))) =
      bsum c2 (fun o => bsum h2 (fun y => bsum w2 (fun x2 => bsum KH (fun u => bsum KW (fun v =>
        if (y + u =? y1 + ph) && (x2 + v =? x1 + pw) then nmul (f (chw h2 w2 o y x2)) (gt V [o; c; u; v]) else n0))))).
    Proof.
      intros Hc Hy Hx. unfold D2. rewrite bsum_chw. apply bsum_ext; intros o Ho; apply bsum_ext; intros y Hy2; apply bsum_ext; intros x2 Hx2.
      unfold JXc, conv_JX. rewrite !chw_div, !chw_divmod, !chw_mod by auto.
      rewrite <- bsum_mul_l. apply bsum_ext; intros u Hu. rewrite <- bsum_mul_l. apply bsum_ext; intros v Hv.
      destruct (_ && _); ring.
    Qed.
    Lemma tr_conv_ok V a N : shape V = [c2; c1; KH; KW] -> shape a = [N; c2; h2; w2] ->
      tr_conv cfg a V = Ok (tab4 N c1 h1 w1 (fun n c y1 x1 =>
        bsum D2 (fun i => nmul (gt a [n; i / (h2 * w2); i mod (h2 * w2) / w2; i mod w2]) (JXc V n i (chw h1 w1 c y1 x1))))).
    Proof.
      destruct Hdi as [Dh Dw]. destruct (cdil cfg) as [dh dw] eqn:Hdl. cbn [fst snd] in Dh, Dw.
      intros SV Sa. unfold tr_conv, conv_transpose2d. rewrite Sa, SV, Hst, Hdl, Hgr, Hpa. cbn [fst snd].
      rewrite (tout_len1 h2 KH ph h1), (tout_len1 w2 KW pw w1) by (destruct Dh, Dw; lia).
      assert (E : ((0 <? 1) && (c2 =? c2) && (c2 mod 1 =? 0) && (0 <? c2)) = true).
      { repeat (apply andb_true_intro; split); try (apply Nat.ltb_lt; lia). apply Nat.eqb_refl. apply (cpg 0). }
      rewrite E. cbn [check]. rewrite Nat.mul_1_l. f_equal. apply tab4_ext. intros n c y1 x1 Hn Hc Hy Hx.
      rewrite (JX_sum V n (fun i => gt a [n; i / (h2 * w2); i mod (h2 * w2) / w2; i mod w2])) by auto.
      rewrite Nat.div_1_r. rewrite (Nat.div_small c c1), (Nat.mod_small c c1) by auto. cbn [Nat.mul Nat.add].
      apply bsum_ext; intros o Ho; apply bsum_ext; intros y Hy2; apply bsum_ext; intros x2 Hx2.
      rewrite !chw_div, !chw_divmod, !chw_mod by auto.
      apply bsum_ext; intros u Hu; apply bsum_ext; intros v Hv.
      now rewrite (dil_off _ _ _ u Dh Hu), (dil_off _ _ _ v Dw Hv), !Nat.mul_1_r.
    Qed.

    (** the padded image seen by the weight products *)
    Definition imgf (rx : T) (c : nat) : nat -> nat -> K :=
      pad0 h1 w1 ph pw (fun y x => gt rx [c; 0; h1 - 1 - y; w1 - 1 - x]).
    Lemma dw_conv_ok a rx N C : 0 < C -> shape a = [N; 1; h2; w2] -> shape rx = [C; 1; h1; w1] ->
      dw_conv cfg W a rx = Ok (tab4 N C KH KW (fun n c u v =>
        bsum h2 (fun y => bsum w2 (fun x2 => nmul (gt a [n; 0; h2 - 1 - y; w2 - 1 - x2]) (imgf rx c (y + u) (x2 + v)))))).
    Proof.
      destruct Hdi as [Dh Dw]. destruct (cdil cfg) as [dh dw] eqn:Hdl. cbn [fst snd] in Dh, Dw.
      intros HC Sa Sr. unfold dw_conv, conv2d, dw_padding, compute_reversed_padding. rewrite khE, kwE, Hpa. cbn [fst snd].
      replace ((0 <=? Z.of_nat KH - 1 - Z.of_nat ph)%Z && (0 <=? Z.of_nat KW - 1 - Z.of_nat pw)%Z) with true.
      2:{ symmetry. apply andb_true_intro; split; apply Z.leb_le; lia. }
      cbn [check]. replace (Z.to_nat (Z.of_nat KH - 1 - Z.of_nat ph)) with (KH - 1 - ph) by lia.
      replace (Z.to_nat (Z.of_nat KW - 1 - Z.of_nat pw)) with (KW - 1 - pw) by lia.
      unfold conv2d_mode. rewrite Sa, Sr, Hst, Hdl, Hgr. cbn [fst snd].
      rewrite !out_len1 by (destruct Dh, Dw; lia).
      replace (h2 + 2 * (KH - 1 - ph) - h1 + 1) with KH by lia. replace (w2 + 2 * (KW - 1 - pw) - w1 + 1) with KW by lia.
      assert (E : ((0 <? 1) && (1 =? 1 * 1) && (C mod 1 =? 0) && (0 <? C)) = true).
      { repeat (apply andb_true_intro; split); try (apply Nat.ltb_lt; lia). reflexivity. apply Nat.eqb_eq, Nat.mod_1_r. }
      rewrite E. clear E. cbn [check pad_ok andb]. f_equal. apply tab4_ext. intros n c u v Hn Hc Hu Hv.
      rewrite Nat.div_1_r. rewrite (Nat.div_small c C) by auto. cbn zeta. rewrite bsum_1.
      transitivity (bsum h1 (fun y' => bsum w1 (fun x' => nmul
        (pad0 h2 w2 (KH - 1 - ph) (KW - 1 - pw) (fun y x => gt a [n; 0; y; x]) (u + y') (v + x')) (gt rx [c; 0; y'; x'])))).
      - apply bsum_ext; intros y' Hy'; apply bsum_ext; intros x' Hx'.
        rewrite (dil_off' _ _ _ y' Dh Hy'), (dil_off' _ _ _ x' Dw Hx'), !Nat.mul_1_r. cbn [Nat.mul Nat.add].
        now rewrite pget_pad0.
      - rewrite (conv_2d (fun y x => gt a [n; 0; y; x]) (fun y x => gt rx [c; 0; y; x])) by auto. reflexivity.
    Qed.

    Lemma conv_mjp_single_ok m rx r : 0 < r -> wf m -> shape m = [c2; 1; h2; w2; r] -> shape rx = [c1; 1; h1; w1] ->
      conv_mjp_single cfg W c1 c2 h2 w2 r m rx = Ok (tab2 NW r (fun p a =>
        bsum h2 (fun y => bsum w2 (fun x2 => nmul (gt m [p / (c1 * KH * KW); 0; h2 - 1 - y; w2 - 1 - x2; a])
          (imgf rx (p mod (c1 * KH * KW) / (KH * KW)) (y + p mod (KH * KW) / KW) (x2 + p mod KW)))))).
    Proof.
      intros Hr Wm Sm Sr. unfold conv_mjp_single. rewrite (mv5a n0 m _ _ _ _ _ Sm). set (t1 := tab5 c2 r 1 h2 w2 _).
      assert (Q1 : numel (shape t1) = c2 * r * numel [1; h2; w2]) by (cbn [t1 shape tab5 tab]; numels; ring).
      rewrite (reshape_1m_eq [1; h2; w2] t1 (c2 * r)); [|numels; nia|exact Q1].
      rewrite reshape_ok by (rewrite Q1; numels; ring). cbn [bind].
      rewrite (dw_conv_ok _ rx (c2 * r) c1) by auto. cbn [bind]. set (t2 := tab4 (c2 * r) c1 KH KW _).
      rewrite khE, kwE.
      rewrite reshape_ok by (cbn [t2 shape tab4 tab]; numels; ring). cbn [bind].
      set (t3 := mkT [c2; r; c1; KH; KW] (data t2)). rewrite (mv5b n0 t3 c2 r c1 KH KW) by reflexivity.
      set (t4 := tab5 c2 c1 KH KW r _).
      rewrite reshape_ok by (cbn [t4 shape tab5 tab]; numels; ring). f_equal.
      apply (tab2_eq n0); [|reflexivity|].
      { apply wf_mkT_reshape; [apply wf_tab|cbn [t4 shape tab5 tab]; unfold NW; numels; ring]. }
      intros p a Hp Ha. destruct (p4_ex c2 c1 KH KW p Hp) as (o & c & u & v & Ho & Hc & Hu & Hv & ->).
      rewrite p4_o, p4_c, p4_u, p4_v by auto.
      rewrite (get_mkT n0 _ t4 _ [o; c; u; v; a]) by (cbn [shape t4 tab5 tab ravel]; unfold p4; numels; ring).
      unfold t4. rewrite get_tab5 by auto. unfold t3.
      rewrite (get_mkT n0 _ t2 _ [o * r + a; c; u; v]) by (cbn [shape t2 tab4 tab ravel]; numels; ring).
      assert (o * r + a < c2 * r) by nia.
      unfold t2. rewrite get_tab4 by auto. apply bsum_ext; intros y Hy; apply bsum_ext; intros x2 Hx2. f_equal.
      rewrite (get_mkT n0 _ t1 _ [o; a; 0; h2 - 1 - y; w2 - 1 - x2]) by (cbn [shape t1 tab5 tab ravel]; numels; ring).
      unfold t1. rewrite get_tab5 by lia. reflexivity.
    Qed.
    Lemma bsum_img (f : nat -> nat -> K) : bsum h2 (fun y => bsum w2 (fun x2 => f (h2 - 1 - y) (w2 - 1 - x2))) = bsum h2 (fun y => bsum w2 (fun x2 => f y x2)).
    Proof.
      rewrite (bsum_rev h2 (fun y => bsum w2 (fun x2 => f y x2))). apply bsum_ext; intros y Hy.
      now rewrite (bsum_rev w2 (fun x2 => f (h2 - 1 - y) x2)).
    Qed.

    (** sums against the weight Jacobian *)
    Lemma JW_sum q (f : nat -> K) p : p < NW -> 
      bsum D2 (fun i => nmul (f i) (JWc q i p)) =
      bsum h2 (fun y => bsum w2 (fun x2 => nmul (f (chw h2 w2 (p / (c1 * KH * KW)) y x2))
        (pget PZeros x h1 w1 ph pw q (p mod (c1 * KH * KW) / (KH * KW)) (y + p mod (KH * KW) / KW) (x2 + p mod KW)))).
    Proof.
      intros Hp. destruct (p4_ex c2 c1 KH KW p Hp) as (o & c & u & v & Ho & Hc & Hu & Hv & ->).
      rewrite p4_o, p4_c, p4_u, p4_v by auto. unfold D2. rewrite bsum_chw.
      assert (Q : forall o' y x2, o' < c2 -> y < h2 -> x2 < w2 -> JWc q (chw h2 w2 o' y x2) (p4 c1 KH KW o c u v) =
         nmul (delta o' o) (pget PZeros x h1 w1 ph pw q c (y + u) (x2 + v))).
      { intros o' y x2 Ho' Hy Hx. unfold JWc, conv_JW. rewrite p4_o, p4_c, p4_u, p4_v, chw_div, chw_divmod, chw_mod by auto.
        destruct (Nat.ltb_spec (p4 c1 KH KW o c u v) (c2 * c1 * KH * KW)); [reflexivity|unfold NW in Hp; lia]. }
      rewrite (bsum_single c2 o); auto.
      - apply bsum_ext; intros y Hy; apply bsum_ext; intros x2 Hx2. rewrite Q by auto. rewrite delta_refl. ring.
      - intros o' Ho' N. apply bsum_0; intros y Hy; apply bsum_0; intros x2 Hx2. rewrite Q by auto. rewrite (delta_neq o') by auto. ring.
    Qed.
    Lemma JW_sum_bias q (f : nat -> K) o : o < c2 ->
      bsum D2 (fun i => nmul (f i) (JWc q i (NW + o))) = bsum h2 (fun y => bsum w2 (fun x2 => f (chw h2 w2 o y x2))).
    Proof.
      intros Ho. unfold D2. rewrite bsum_chw.
      assert (Q : forall o' y x2, o' < c2 -> y < h2 -> x2 < w2 -> JWc q (chw h2 w2 o' y x2) (NW + o) = delta o' o).
      { intros o' y x2 Ho' Hy Hx. unfold JWc, conv_JW. rewrite chw_div by auto. fold NW.
        destruct (Nat.ltb_spec (NW + o) NW); [lia|]. now replace (NW + o - NW) with o by lia. }
      rewrite (bsum_single c2 o); auto.
      - apply bsum_ext; intros y Hy; apply bsum_ext; intros x2 Hx2. rewrite Q by auto. rewrite delta_refl. ring.
      - intros o' Ho' N. apply bsum_0; intros y Hy; apply bsum_0; intros x2 Hx2. rewrite Q by auto. rewrite (delta_neq o') by auto. ring.
    Qed.
    (** image of sample q *)
    Definition is_img (rx : T) (q : nat) : Prop := shape rx = [c1; 1; h1; w1] /\
      forall c y0 x0, c < c1 -> y0 < h1 -> x0 < w1 -> gt rx [c; 0; h1 - 1 - y0; w1 - 1 - x0] = gt x [q; c; y0; x0].
    Lemma imgf_x rx q c y0 x0 : is_img rx q -> c < c1 -> imgf rx c y0 x0 = pget PZeros x h1 w1 ph pw q c y0 x0.
    Proof. intros [_ E] Hc. rewrite pget_pad0. apply pad0_ext. intros. now apply E. Qed.

    (** stacks of rows, given by flat index *)
    Lemma single_JW m rx r q (V : nat -> nat -> K) : 0 < r -> wf m -> shape m = [c2; 1; h2; w2; r] -> is_img rx q ->
      (forall o y x2 a, o < c2 -> y < h2 -> x2 < w2 -> a < r -> gt m [o; 0; h2 - 1 - y; w2 - 1 - x2; a] = V a (chw h2 w2 o y x2)) ->
      conv_mjp_single cfg W c1 c2 h2 w2 r m rx = Ok (tab2 NW r (fun p a => bsum D2 (fun i => nmul (V a i) (JWc q i p)))).
    Proof.
      intros Hr Wm Sm Im E. rewrite conv_mjp_single_ok by (auto; apply Im). f_equal. apply tab2_ext. intros p a Hp Ha.
      rewrite JW_sum by auto. destruct (p4_ex c2 c1 KH KW p Hp) as (o & c & u & v & Ho & Hc & Hu & Hv & ->).
      rewrite p4_o, p4_c, p4_u, p4_v by auto. apply bsum_ext; intros y Hy; apply bsum_ext; intros x2 Hx2.
      rewrite E by auto. now rewrite (imgf_x rx q) by auto.
    Qed.

    Lemma JWc_at q o' y x2 o c u v : o' < c2 -> y < h2 -> x2 < w2 -> o < c2 -> c < c1 -> u < KH -> v < KW ->
      JWc q (chw h2 w2 o' y x2) (p4 c1 KH KW o c u v) = nmul (delta o' o) (pget PZeros x h1 w1 ph pw q c (y + u) (x2 + v)).
    Proof.
      intros Ho' Hy Hx Ho Hc Hu Hv. unfold JWc, conv_JW. rewrite p4_o, p4_c, p4_u, p4_v, chw_div, chw_divmod, chw_mod by auto.
      pose proof (p4_lt c2 c1 KH KW o c u v Ho Hc Hu Hv).
      destruct (Nat.ltb_spec (p4 c1 KH KW o c u v) (c2 * c1 * KH * KW)); [reflexivity|lia].
    Qed.
    Lemma JWc_bias q o' y x2 o : o' < c2 -> y < h2 -> x2 < w2 -> JWc q (chw h2 w2 o' y x2) (NW + o) = delta o' o.
    Proof.
      intros Ho' Hy Hx. unfold JWc, conv_JW. rewrite chw_div by auto. fold NW.
      destruct (Nat.ltb_spec (NW + o) NW); [lia|]. now replace (NW + o - NW) with o by lia.
    Qed.

    (** slices of one sample *)
    Lemma row0_4 (t : T) n1 n2 n3 n4 i : shape t = [n1; n2; n3; n4] -> i < n1 ->
      row0 i t = Ok (tab4 1 n2 n3 n4 (fun a j k l => gt t [i + a; j; k; l])).
    Proof.
      intros S L. unfold row0, slice, rank, dim. rewrite S. cbn [length nth set_nth Nat.ltb Nat.leb].
      rewrite !Nat.min_l by lia. replace (i + 1 - i) with 1 by lia. apply f_equal. apply tab_ext; intros idx V; didx idx V; reflexivity.
    Qed.
    Lemma row0_3 (t : T) n1 n2 n3 i : shape t = [n1; n2; n3] -> i < n1 ->
      row0 i t = Ok (tab3 1 n2 n3 (fun a j k => gt t [i + a; j; k])).
    Proof.
      intros S L. unfold row0, slice, rank, dim. rewrite S. cbn [length nth set_nth Nat.ltb Nat.leb].
      rewrite !Nat.min_l by lia. replace (i + 1 - i) with 1 by lia. apply f_equal. apply tab_ext; intros idx V; didx idx V; reflexivity.
    Qed.
    Lemma row1_4 (t : T) n1 n2 n3 n4 i : shape t = [n1; n2; n3; n4] -> i < n2 ->
      row1 i t = Ok (tab4 n1 1 n3 n4 (fun j a k l => gt t [j; i + a; k; l])).
    Proof.
      intros S L. unfold row1, slice, rank, dim. rewrite S. cbn [length nth set_nth Nat.ltb Nat.leb].
      rewrite !Nat.min_l by lia. replace (i + 1 - i) with 1 by lia. apply f_equal. apply tab_ext; intros idx V; didx idx V; reflexivity.
    Qed.
    Lemma row1_5 (t : T) n1 n2 n3 n4 n5 i : shape t = [n1; n2; n3; n4; n5] -> i < n2 ->
      row1 i t = Ok (tab5 n1 1 n3 n4 n5 (fun j a k l m => gt t [j; i + a; k; l; m])).
    Proof.
      intros S L. unfold row1, slice, rank, dim. rewrite S. cbn [length nth set_nth Nat.ltb Nat.leb].
      rewrite !Nat.min_l by lia. replace (i + 1 - i) with 1 by lia. apply f_equal. apply tab_ext; intros idx V; didx idx V; reflexivity.
    Qed.
    (** t[i].unsqueeze(0) *)
    Lemma unsq4 (t : T) n1 n2 n3 n4 i : shape t = [n1; n2; n3; n4] -> i < n1 ->
      unsqueeze0 (select0 n0 i t) = tab4 1 n2 n3 n4 (fun a j k l => gt t [i + a; j; k; l]).
    Proof.
      intros S L. unfold select0, unsqueeze0. rewrite S. cbn [tl shape tab].
      apply (tab4_eq n0); [|reflexivity|].
      { apply (wf_mkT_reshape [1; n2; n3; n4] (tab [n2; n3; n4] _)); [apply wf_tab|cbn [shape tab]; numels; ring]. }
      intros a j k l Ha Hj Hk Hl. replace a with 0 by lia.
      rewrite (get_mkT n0 [1; n2; n3; n4] (tab [n2; n3; n4] _) _ [j; k; l]) by (cbn [shape tab ravel]; numels; ring).
      rewrite get_tab by (cbn; auto). now rewrite Nat.add_0_r.
    Qed.
    Lemma unsq3 (t : T) n1 n2 n3 i : shape t = [n1; n2; n3] -> i < n1 ->
      unsqueeze0 (select0 n0 i t) = tab3 1 n2 n3 (fun a j k => gt t [i + a; j; k]).
    Proof.
      intros S L. unfold select0, unsqueeze0. rewrite S. cbn [tl shape tab].
      apply (tab3_eq n0); [|reflexivity|].
      { apply (wf_mkT_reshape [1; n2; n3] (tab [n2; n3] _)); [apply wf_tab|cbn [shape tab]; numels; ring]. }
      intros a j k Ha Hj Hk. replace a with 0 by lia.
      rewrite (get_mkT n0 [1; n2; n3] (tab [n2; n3] _) _ [j; k]) by (cbn [shape tab ravel]; numels; ring).
      rewrite get_tab by (cbn; auto). now rewrite Nat.add_0_r.
    Qed.
    Lemma unsq5 (t : T) n1 n2 n3 n4 n5 i : shape t = [n1; n2; n3; n4; n5] -> i < n1 ->
      unsqueeze0 (select0 n0 i t) = tab5 1 n2 n3 n4 n5 (fun a j k l m => gt t [i + a; j; k; l; m]).
    Proof.
      intros S L. unfold select0, unsqueeze0. rewrite S. cbn [tl shape tab].
      apply (tab_eq n0); [|reflexivity|].
      { apply (wf_mkT_reshape [1; n2; n3; n4; n5] (tab [n2; n3; n4; n5] _)); [apply wf_tab|cbn [shape tab]; numels; ring]. }
      intros idx V. didx idx V.
      match goal with |- context [gt _ [?a'; ?j'; ?k'; ?l'; ?m']] => rename a' into a, j' into j, k' into k, l' into l, m' into m end.
      cbn [nth]. replace a with 0 by lia.
      rewrite (get_mkT n0 [1; n2; n3; n4; n5] (tab [n2; n3; n4; n5] _) _ [j; k; l; m]) by (cbn [shape tab ravel]; numels; ring).
      rewrite get_tab by (cbn; auto). now rewrite Nat.add_0_r.
    Qed.

    (** the reversed image of a sample *)
    Lemma img_of (xi : T) q : shape xi = [1; c1; h1; w1] ->
      (forall c y0 x0, c < c1 -> y0 < h1 -> x0 < w1 -> gt xi [0; c; y0; x0] = gt x [q; c; y0; x0]) ->
      is_img (movedim n0 [0%Z] [1%Z] (flip n0 [-2; -1]%Z xi)) q.
    Proof.
      intros S E. rewrite (flip4_23 n0 xi _ _ _ _ S). set (t := tab4 1 c1 h1 w1 _).
      rewrite (mv4_01 n0 t 1 c1 h1 w1) by reflexivity. split; [reflexivity|]. intros c y0 x0 Hc Hy Hx.
      rewrite get_tab4 by lia. unfold t. rewrite get_tab4 by lia. rewrite <- E by auto. do 2 f_equal. repeat (f_equal; try lia).
    Qed.
    Lemma img_row q : q < b -> exists xi, row0 q x = Ok xi /\ is_img (movedim n0 [0%Z] [1%Z] (flip n0 [-2; -1]%Z xi)) q.
    Proof.
      intros Hq. eexists. split; [apply (row0_4 x _ _ _ _ q Sx Hq)|]. apply img_of; [reflexivity|].
      intros. rewrite get_tab4 by lia. now rewrite Nat.add_0_r.
    Qed.
    Lemma img_vmap q : q < b -> is_img (movedim n0 [0%Z] [1%Z] (unsqueeze0 (select0 n0 q (flip n0 [-2; -1]%Z x)))) q.
    Proof.
      intros Hq. rewrite (flip4_23 n0 x _ _ _ _ Sx). set (t := tab4 b c1 h1 w1 _).
      rewrite (unsq4 t b c1 h1 w1 q) by auto. set (t' := tab4 1 c1 h1 w1 _).
      rewrite (mv4_01 n0 t' 1 c1 h1 w1) by reflexivity. split; [reflexivity|]. intros c y0 x0 Hc Hy Hx.
      rewrite get_tab4 by lia. unfold t'. rewrite get_tab4 by lia. unfold t. rewrite get_tab4 by lia.
      rewrite Nat.add_0_r. repeat (f_equal; try lia).
    Qed.

    (** *** vector products *)
    Lemma single_vJ vi rx q (V : nat -> K) : wf vi -> shape vi = [c2; 1; h2; w2] -> is_img rx q ->
      (forall o y x2, o < c2 -> y < h2 -> x2 < w2 -> gt vi [o; 0; h2 - 1 - y; w2 - 1 - x2] = V (chw h2 w2 o y x2)) ->
      (vi <- reshape_1m [1; h2; w2] vi ;; r <- dw_conv cfg W vi rx ;; reshape [NW] r) =
      Ok (tab [NW] (fun idx => bsum D2 (fun i => nmul (V i) (JWc q i (hd 0 idx))))).
    Proof.
      intros Wv Sv Im E.
      rewrite (reshape_1m_eq [1; h2; w2] vi c2); [|numels; nia|rewrite Sv; numels; ring].
      rewrite reshape_ok by (rewrite Sv; numels; ring). cbn [bind].
      rewrite (dw_conv_ok _ rx c2 c1) by (auto; apply Im). cbn [bind].
      set (t := tab4 c2 c1 KH KW _). rewrite reshape_ok by (cbn [t shape tab4 tab]; unfold NW; numels; ring). f_equal.
      apply (tab_eq n0); [|reflexivity|].
      { apply wf_mkT_reshape; [apply wf_tab|cbn [t shape tab4 tab]; unfold NW; numels; ring]. }
      intros idx Vx. didx idx Vx.
      match goal with |- context [gt _ [?a]] => rename a into p end. cbn [hd]. rewrite JW_sum by auto.
      assert (Hp : p < NW) by auto.
      destruct (p4_ex c2 c1 KH KW p Hp) as (o & c & u & v & Ho & Hc & Hu & Hv & ->).
      rewrite p4_o, p4_c, p4_u, p4_v by auto.
      rewrite (get_mkT n0 _ t _ [o; c; u; v]) by (cbn [shape t tab4 tab ravel]; unfold p4; numels; ring).
      unfold t. rewrite get_tab4 by auto. apply bsum_ext; intros y Hy; apply bsum_ext; intros x2 Hx2.
      rewrite (imgf_x rx q) by auto. f_equal. rewrite <- E by auto. apply get_mkT. rewrite Sv. reflexivity.
    Qed.

    Variables (y : T) (val : option T).
    Hypothesis (Fy : conv_forward cfg W bias x = Ok y) (Vy : val = None \/ val = Some y).
    Lemma conv_y : shape y = [b; c2; h2; w2].
    Proof. rewrite conv_fwd_ok in Fy. injection Fy as <-. reflexivity. Qed.
    Lemma conv_val_ok : conv_val cfg W bias x val = Ok y.
    Proof. destruct Vy as [-> | ->]; cbn; auto. Qed.

    Lemma conv_vjp_in v : wf v -> shape v = [b; D2] -> conv_vjp cfg W bias x val v Input = Ok (Some (vJ b D2 D1 (JXc W) v)).
    Proof.
      intros Wv Sv. unfold conv_vjp. rewrite conv_val_ok. cbn [bind]. unfold unpack4. rewrite Sx, conv_y. cbn [bind].
      rewrite Sv. fold D2. rewrite shape_eqb_refl. cbn [check].
      rewrite reshape_ok by (rewrite Sv; unfold D2; numels; ring). cbn [bind].
      rewrite (tr_conv_ok W _ b) by auto. cbn [bind]. rewrite reshape_ok by (cbn [shape tab4 tab]; unfold D1; numels; ring).
      cbn [some bind]. do 2 f_equal. apply (tab2_eq n0); [|reflexivity|].
      { apply wf_mkT_reshape; [apply wf_tab|cbn [shape tab4 tab]; unfold D1; numels; ring]. }
      intros q j Hq Hj. destruct (chw_ex c1 h1 w1 j Hj) as (c & y1 & x1 & Hc & Hy & Hx & ->).
      rewrite (get_mkT n0 _ _ _ [q; c; y1; x1]) by (cbn [shape tab4 tab ravel]; unfold chw; numels; ring).
      rewrite get_tab4 by auto. apply bsum_ext. intros i Hi. f_equal.
      destruct (chw_ex c2 h2 w2 i Hi) as (o & y2 & x2 & Ho & Hy2 & Hx2 & ->).
      rewrite chw_div, chw_divmod, chw_mod by auto. apply get_mkT. rewrite Sv. cbn [ravel]. unfold chw, D2. numels. ring.
    Qed.

    Lemma conv_vjp_w v : wf v -> shape v = [b; D2] -> conv_vjp cfg W bias x val v Weight = Ok (Some (vJ b D2 np JWc v)).
    Proof.
      intros Wv Sv. unfold conv_vjp. rewrite conv_val_ok. cbn [bind]. unfold unpack4. rewrite Sx, conv_y. cbn [bind].
      rewrite Sv. fold D2. rewrite shape_eqb_refl. cbn [check].
      rewrite reshape_ok by (rewrite Sv; unfold D2; numels; ring). cbn [bind].
      set (t := mkT [b; c2; h2; w2] (data v)).
      assert (Wt : wf t) by (apply wf_mkT_reshape; auto; rewrite Sv; unfold D2; numels; ring).
      assert (Gt : forall q o y2 x2, o < c2 -> y2 < h2 -> x2 < w2 -> gt t [q; o; y2; x2] = gt v [q; chw h2 w2 o y2 x2]).
      { intros. apply get_mkT. rewrite Sv. cbn [ravel]. unfold chw, D2. numels. ring. }
      assert (Eb : exists bt, match bias with Some _ => einsum "bchw->bc" [t] | None => Ok t end = Ok bt /\
        (bias <> None -> bt = tab2 b c2 (fun q o => bsum h2 (fun y2 => bsum w2 (fun x2 => gt v [q; chw h2 w2 o y2 x2]))))).
      { destruct bias as [bi|]; [|eexists; split; [reflexivity|congruence]].
        rewrite (es_bchw_to_bc t b c2 h2 w2) by reflexivity. eexists. split; [reflexivity|]. intros _. apply tab2_ext. intros q o Hq Ho.
        apply bsum_ext; intros y2 Hy2; apply bsum_ext; intros x2 Hx2. now apply Gt. }
      destruct Eb as (bt & Eb & Ebt). rewrite Eb. cbn [bind].
      rewrite (flip4_23 n0 t b c2 h2 w2) by reflexivity. set (ft := tab4 b c2 h2 w2 _). rewrite NWE.
      match goal with |- (bind ?a _) = _ => assert (E : a = Ok (tab [b; NW] (fun idx => bsum D2 (fun i => nmul (gt v [hd 0 idx; i]) (JWc (hd 0 idx) i (hd 0 (tl idx))))))) end.
      { destruct (cvmap cfg).
        - apply (vmap2_ok n0 n0 n0 _ _ ft b [c1; h1; w1] [c2; h2; w2] [NW] (fun q idx => bsum D2 (fun i => nmul (gt v [q; i]) (JWc q i (hd 0 idx))))).
          + unfold flip. now rewrite Sx.
          + reflexivity.
          + auto.
          + intros q Hq. rewrite (unsq4 ft b c2 h2 w2 q) by auto. set (t' := tab4 1 c2 h2 w2 _).
            rewrite (mv4_01 n0 t' 1 c2 h2 w2) by reflexivity.
            apply (single_vJ _ _ q (fun i => gt v [q; i])); [apply wf_tab|reflexivity|now apply img_vmap|].
            intros o y2 x2 Ho Hy2 Hx2. rewrite get_tab4 by lia. unfold t'. rewrite get_tab4 by lia. unfold ft. rewrite get_tab4 by lia.
            rewrite <- Gt by auto. repeat (f_equal; try lia).
        - apply (loop_rows_ok b [NW] _ (fun q idx => bsum D2 (fun i => nmul (gt v [q; i]) (JWc q i (hd 0 idx))))).
          intros q Hq. destruct (img_row q Hq) as (xi & Ex & Im). rewrite Ex. cbn [bind].
          rewrite (mv4_01 n0 ft b c2 h2 w2) by reflexivity. set (t' := tab4 c2 b h2 w2 _).
          rewrite (row1_4 t' c2 b h2 w2 q) by auto. cbn [bind].
          apply (single_vJ _ _ q (fun i => gt v [q; i])); [apply wf_tab|reflexivity|exact Im|].
          intros o y2 x2 Ho Hy2 Hx2. rewrite get_tab4 by lia. unfold t'. rewrite get_tab4 by lia. unfold ft. rewrite get_tab4 by lia.
          rewrite <- Gt by auto. repeat (f_equal; try lia). }
      rewrite E. cbn [bind]. clear E.
      rewrite npE. destruct biasE as [B0|[bi B0]]; rewrite B0; [|rewrite Ebt by congruence].
      - do 2 f_equal. rewrite Nat.add_0_r. unfold vJ, tab2. apply tab_ext. intros idx V. didx idx V. reflexivity.
      - rewrite (cat1_2 n0 _ _ b NW c2) by reflexivity. cbn [some bind]. do 2 f_equal.
        apply tab2_ext. intros q p Hq Hp. destruct (Nat.ltb_spec p NW).
        + rewrite get_tab by (cbn; auto). reflexivity.
        + rewrite get_tab2 by lia. assert (exists o, p = NW + o) as [o ->] by (exists (p - NW); lia). replace (NW + o - NW) with o by lia.
          rewrite (JW_sum_bias q (fun i => gt v [q; i])) by lia. reflexivity.
    Qed.

    (** *** matrix products *)
    Lemma conv_mjp_some_in r M : 0 < r -> wf M -> shape M = [b; r; D2] ->
      conv_mjp_some cfg W bias x y M Input = Ok (Some (MJ b r D2 D1 (JXc W) M)).
    Proof.
      intros Hr WM SM. unfold conv_mjp_some, unpack4. rewrite Sx, conv_y. cbn [bind]. unfold size. rewrite SM. cbn [nth_error bind].
      fold D2. rewrite shape_eqb_refl. cbn [check]. rewrite (mv3_m1 n0 M b r D2 SM). set (t1 := tab3 b D2 r _).
      rewrite reshape_ok by (cbn [t1 shape tab3 tab]; unfold D2; numels; ring). cbn [bind].
      set (t2 := mkT [b; c2; h2; w2; r] (data t1)). rewrite (mv5a n0 t2 b c2 h2 w2 r) by reflexivity.
      set (t3 := tab5 b r c2 h2 w2 _).
      assert (Q3 : numel (shape t3) = b * r * numel [c2; h2; w2]) by (cbn [t3 shape tab5 tab]; numels; ring).
      rewrite (reshape_1m_eq [c2; h2; w2] t3 (b * r)); [|numels; nia|exact Q3].
      rewrite reshape_ok by (rewrite Q3; numels; ring). cbn [bind].
      rewrite (tr_conv_ok W _ (b * r)) by auto. cbn [bind]. set (t4 := tab4 (b * r) c1 h1 w1 _).
      rewrite reshape_ok by (cbn [t4 shape tab4 tab]; numels; ring). cbn [bind].
      set (t5 := mkT [b; r; c1; h1; w1] (data t4)). rewrite (mv5b n0 t5 b r c1 h1 w1) by reflexivity. set (t6 := tab5 b c1 h1 w1 r _).
      rewrite reshape_ok by (cbn [t6 shape tab5 tab]; numels; ring). cbn [bind].
      set (t7 := mkT [b; c1 * h1 * w1; r] (data t6)). rewrite (mv3_12 n0 t7 b (c1 * h1 * w1) r) by reflexivity. do 2 f_equal.
      apply tab3_ext. intros q a j Hq Ha Hj. destruct (chw_ex c1 h1 w1 j Hj) as (c & y1 & x1 & Hc & Hy & Hx & ->).
      unfold t7. rewrite (get_mkT n0 _ t6 _ [q; c; y1; x1; a]) by (cbn [shape t6 tab5 tab ravel]; unfold chw; numels; ring).
      unfold t6. rewrite get_tab5 by auto. unfold t5.
      rewrite (get_mkT n0 _ t4 _ [q * r + a; c; y1; x1]) by (cbn [shape t4 tab4 tab ravel]; numels; ring).
      assert (Hqa : q * r + a < b * r) by nia.
      unfold t4. rewrite get_tab4 by auto. apply bsum_ext. intros i Hi.
      destruct (chw_ex c2 h2 w2 i Hi) as (o & y2 & x2 & Ho & Hy2 & Hx2 & ->).
      rewrite chw_div, chw_divmod, chw_mod by auto. f_equal.
      rewrite (get_mkT n0 _ t3 _ [q; a; o; y2; x2]) by (cbn [shape t3 tab5 tab ravel]; numels; ring).
      unfold t3. rewrite get_tab5 by auto. unfold t2.
      rewrite (get_mkT n0 _ t1 _ [q; chw h2 w2 o y2 x2; a]) by (cbn [shape t1 tab3 tab ravel]; unfold chw, D2; numels; ring).
      unfold t1. rewrite get_tab3 by auto. reflexivity.
    Qed.

    (** the (rows, outputs) matrix of each sample, moved and flipped *)
    Definition mflip (r N : nat) (M : T) : T :=
      flip n0 [-3; -2]%Z (mkT [N; c2; h2; w2; r] (data (movedim n0 [-1]%Z [-2]%Z M))).
    Lemma mflip_get r N M q o y2 x2 a : shape M = [N; r; D2] -> q < N -> o < c2 -> y2 < h2 -> x2 < w2 -> a < r ->
      gt (mflip r N M) [q; o; h2 - 1 - y2; w2 - 1 - x2; a] = gt M [q; a; chw h2 w2 o y2 x2].
    Proof.
      intros SM Hq Ho Hy Hx Ha. unfold mflip. rewrite (mv3_m1 n0 M N r D2 SM). set (t1 := tab3 N D2 r _).
      rewrite (flip5_23 n0 _ N c2 h2 w2 r) by reflexivity. rewrite get_tab5 by lia.
      replace (h2 - 1 - (h2 - 1 - y2)) with y2 by lia. replace (w2 - 1 - (w2 - 1 - x2)) with x2 by lia.
      rewrite (get_mkT n0 _ t1 _ [q; chw h2 w2 o y2 x2; a]) by (cbn [shape t1 tab3 tab ravel]; unfold chw, D2; numels; ring).
      unfold t1. rewrite get_tab3 by (auto; apply chw_lt; auto). reflexivity.
    Qed.
    Lemma mflip_shape r N M : shape (mflip r N M) = [N; c2; h2; w2; r].
    Proof. reflexivity. Qed.

    Lemma conv_mjp_some_w r M : 0 < r -> wf M -> shape M = [b; r; D2] ->
      conv_mjp_some cfg W bias x y M Weight = Ok (Some (MJ b r D2 np JWc M)).
    Proof.
      intros Hr WM SM. unfold conv_mjp_some, unpack4. rewrite Sx, conv_y. cbn [bind]. unfold size. rewrite SM. cbn [nth_error bind].
      fold D2. rewrite shape_eqb_refl. cbn [check].
      rewrite reshape_ok by (rewrite (mv3_m1 n0 M b r D2 SM); cbn [shape tab3 tab]; unfold D2; numels; ring). cbn [bind].
      fold (mflip r b M). rewrite NWE.
      match goal with |- (bind ?a _) = _ => assert (E : a = Ok (tab [b; NW; r] (fun idx => bsum D2 (fun i => nmul (gt M [hd 0 idx; nth 1 (tl idx) 0; i]) (JWc (hd 0 idx) i (hd 0 (tl idx))))))) end.
      { destruct (cvmap cfg).
        - apply (vmap2_ok n0 n0 n0 _ _ (mflip r b M) b [c1; h1; w1] [c2; h2; w2; r] [NW; r] (fun q idx => bsum D2 (fun i => nmul (gt M [q; nth 1 idx 0; i]) (JWc q i (hd 0 idx))))).
          + unfold flip. now rewrite Sx.
          + reflexivity.
          + auto.
          + intros q Hq. rewrite (unsq5 (mflip r b M) b c2 h2 w2 r q) by auto. set (t' := tab5 1 c2 h2 w2 r _).
            rewrite (mv5_01 n0 t' 1 c2 h2 w2 r) by reflexivity.
            rewrite (single_JW _ _ r q (fun a i => gt M [q; a; i])); [|auto|apply wf_tab|reflexivity|now apply img_vmap|].
            * apply f_equal. apply tab_ext. intros idx V. didx idx V. reflexivity.
            * intros o y2 x2 a Ho Hy2 Hx2 Ha. rewrite get_tab5 by lia. unfold t'. rewrite get_tab5 by lia.
              rewrite Nat.add_0_r. now apply mflip_get.
        - apply (loop_rows_ok b [NW; r] _ (fun q idx => bsum D2 (fun i => nmul (gt M [q; nth 1 idx 0; i]) (JWc q i (hd 0 idx))))).
          intros q Hq. destruct (img_row q Hq) as (xi & Ex & Im). rewrite Ex. cbn [bind].
          rewrite (mv5_01 n0 (mflip r b M) b c2 h2 w2 r) by reflexivity. set (t' := tab5 c2 b h2 w2 r _).
          rewrite (row1_5 t' c2 b h2 w2 r q) by auto. cbn [bind].
          rewrite (single_JW _ _ r q (fun a i => gt M [q; a; i])); [|auto|apply wf_tab|reflexivity|exact Im|].
          * apply f_equal. apply tab_ext. intros idx V. didx idx V. reflexivity.
          * intros o y2 x2 a Ho Hy2 Hx2 Ha. rewrite get_tab5 by lia. unfold t'. rewrite get_tab5 by lia.
            rewrite Nat.add_0_r. now apply mflip_get. }
      rewrite E. cbn [bind]. clear E. set (t := tab [b; NW; r] _). rewrite (mv3_m1 n0 t b NW r) by reflexivity.
      assert (Gt : forall q p a, q < b -> p < NW -> a < r -> gt t [q; p; a] = bsum D2 (fun i => nmul (gt M [q; a; i]) (JWc q i p))).
      { intros q p a Hq Hp Ha. unfold t. rewrite get_tab by (cbn; auto). reflexivity. }
      rewrite npE. destruct biasE as [B0|[bi B0]]; rewrite B0.
      - do 2 f_equal. rewrite Nat.add_0_r. apply tab3_ext. intros. now rewrite Gt.
      - assert (Q : Nat.eqb (b * c2 * h2 * w2) 0 = false) by (apply Nat.eqb_neq; nia). rewrite Q. cbn [negb check].
        rewrite reshape_ok by (rewrite SM; unfold D2; numels; ring). cbn [bind].
        rewrite (es_bvchw_to_bvc _ b r c2 h2 w2) by reflexivity. cbn [bind].
        rewrite (cat2_3 n0 _ _ b NW c2 r) by reflexivity. cbn [some bind]. do 2 f_equal.
        apply tab3_ext. intros q a p Hq Ha Hp. destruct (Nat.ltb_spec p NW).
        + rewrite get_tab3 by auto. now rewrite Gt.
        + rewrite get_tab3 by lia. assert (exists o, p = NW + o) as [o ->] by (exists (p - NW); lia). replace (NW + o - NW) with o by lia.
          rewrite (JW_sum_bias q (fun i => gt M [q; a; i])) by lia.
          apply bsum_ext; intros y2 Hy2; apply bsum_ext; intros x2 Hx2. apply get_mkT. rewrite SM. cbn [ravel]. unfold chw, D2. numels. ring.
    Qed.

    Lemma conv_mjp_ok r M : 0 < r -> wf M -> shape M = [b; r; D2] ->
      conv_mjp cfg W bias x val (Some M) Input = Ok (Some (MJ b r D2 D1 (JXc W) M)) /\
      conv_mjp cfg W bias x val (Some M) Weight = Ok (Some (MJ b r D2 np JWc M)).
    Proof.
      intros. unfold conv_mjp. rewrite conv_val_ok. cbn [bind].
      rewrite conv_mjp_some_in with (r := r), conv_mjp_some_w with (r := r) by auto. auto.
    Qed.
    Lemma MJ_eye n J : MJ b D2 D2 n J (dense b D2 D2 (fun _ i j => delta i j)) = dense b D2 n J.
    Proof.
      apply tab3_ext. intros q i j Hq Hi Hj.
      rewrite (bsum_ext D2 _ (fun i0 => nmul (delta i i0) (J q i0 j))).
      - now rewrite bsum_delta_l.
      - intros i0 Hi0. unfold dense. now rewrite get_tab3.
    Qed.
    Lemma D2_pos : 0 < D2. Proof. unfold D2. assert (0 < c2 * h2) by nia. nia. Qed.
    Lemma conv_jac_ok :
      conv_jacobian cfg W bias x val Input = Ok (Some (dense b D2 D1 (JXc W))) /\
      conv_jacobian cfg W bias x val Weight = Ok (Some (dense b D2 np JWc)).
    Proof.
      unfold conv_jacobian. rewrite conv_val_ok. cbn [bind]. unfold unpack4. rewrite conv_y. cbn [bind]. fold D2.
      rewrite ones_embed. cbn [bind]. pose proof D2_pos.
      rewrite conv_mjp_some_in with (r := D2), conv_mjp_some_w with (r := D2) by (first [apply wf_tab|assumption|reflexivity]).
      now rewrite !MJ_eye.
    Qed.

    (** *** jTmjp, input *)
    Lemma conv_in_full M : wf M -> shape M = [b; D2; D2] -> conv_jTmjp_in_full cfg W bias x y M = Ok (pull b D2 D1 (JXc W) false false M).
    Proof.
      intros WM SM. pose proof D2_pos. assert (0 < D1) by (unfold D1; assert (0 < c1 * h1) by nia; nia).
      unfold conv_jTmjp_in_full. rewrite conv_mjp_some_in with (r := D2) by auto. cbn [bind need].
      set (t1 := MJ b D2 D2 D1 (JXc W) M). rewrite (mv3_m2 n0 t1 b D2 D1) by reflexivity. set (t2 := tab3 b D1 D2 _).
      rewrite conv_mjp_some_in with (r := D1) by (try apply wf_tab; auto). cbn [bind need].
      set (t3 := MJ b D1 D2 D1 (JXc W) t2). rewrite (mv3_m2 n0 t3 b D1 D1) by reflexivity. f_equal.
      unfold pull, present. apply tab3_ext. intros q j l Hq Hj Hl. unfold t3, MJ. rewrite get_tab3 by auto. unfold pull_at.
      apply bsum_ext. intros i Hi. unfold t2. rewrite get_tab3 by auto. unfold t1, MJ. rewrite get_tab3 by auto.
      rewrite <- bsum_mul_r. apply bsum_ext. intros k Hk. cbn [metric]. ring.
    Qed.
    Lemma bsum_hit n a c (f : nat -> K) : bsum n (fun u => if a + u =? c then f u else n0) = if (a <=? c) && (c - a <? n) then f (c - a) else n0.
    Proof.
      destruct (Nat.leb_spec a c) as [L|L], (Nat.ltb_spec (c - a) n) as [L'|L']; cbn [andb].
      - rewrite (bsum_single n (c - a)); auto.
        + replace (a + (c - a) =? c) with true by (symmetry; apply Nat.eqb_eq; lia). reflexivity.
        + intros u Hu Nu. destruct (Nat.eqb_spec (a + u) c); auto; lia.
      - apply bsum_0. intros u Hu. destruct (Nat.eqb_spec (a + u) c); auto; lia.
      - apply bsum_0. intros u Hu. destruct (Nat.eqb_spec (a + u) c); auto; lia.
      - apply bsum_0. intros u Hu. destruct (Nat.eqb_spec (a + u) c); auto; lia.
    Qed.
    Lemma JX_hit V q i j : JXc V q i j =
      (let y := i mod (h2 * w2) / w2 in let x := i mod w2 in let y1 := j mod (h1 * w1) / w1 + ph in let x1 := j mod w1 + pw in
       if (y <=? y1) && (y1 - y <? KH) then if (x <=? x1) && (x1 - x <? KW) then gt V [i / (h2 * w2); j / (h1 * w1); y1 - y; x1 - x] else n0 else n0).
    Proof.
      unfold JXc, conv_JX. cbn zeta.
      rewrite <- bsum_hit with (f := fun u => if (i mod w2 <=? j mod w1 + pw) && (j mod w1 + pw - i mod w2 <? KW) then gt V [i / (h2 * w2); j / (h1 * w1); u; j mod w1 + pw - i mod w2] else n0).
      apply bsum_ext. intros u Hu.
      destruct (Nat.eqb_spec (i mod (h2 * w2) / w2 + u) (j mod (h1 * w1) / w1 + ph)) as [E|E]; cbn [andb].
      - now rewrite bsum_hit with (f := fun v => gt V [i / (h2 * w2); j / (h1 * w1); u; v]).
      - now apply bsum_0.
    Qed.
    Lemma JX_sq q i j : i < D2 -> j < D1 -> JXc (sq W) q i j = nmul (JXc W q i j) (JXc W q i j).
    Proof.
      intros Hi Hj. rewrite !JX_hit. cbn zeta.
      destruct (chw_ex c2 h2 w2 i Hi) as (o & y2 & x2 & Ho & Hy2 & Hx2 & ->).
      destruct (chw_ex c1 h1 w1 j Hj) as (c & y1 & x1 & Hc & Hy & Hx & ->).
      rewrite !chw_div, !chw_divmod, !chw_mod by auto.
      destruct (_ <=? _); cbn [andb]; [|ring]. destruct (Nat.ltb_spec (y1 + ph - y2) KH); [|ring].
      destruct (x2 <=? _); cbn [andb]; [|ring]. destruct (Nat.ltb_spec (x1 + pw - x2) KW); [|ring].
      unfold sq. rewrite get_emap; auto. rewrite SW. cbn. auto.
    Qed.
    Lemma conv_in_dd M : wf M -> shape M = [b; D2] \/ shape M = [b; c2; h2; w2] -> forall M', wf M' -> shape M' = [b; D2] -> data M' = data M ->
      conv_jTmjp_in_dd cfg W x y M = Ok (pull b D2 D1 (JXc W) true true M').
    Proof.
      intros WM SM M' WM' SM' DM. unfold conv_jTmjp_in_dd, unpack4. rewrite Sx, conv_y. cbn [bind].
      rewrite reshape_ok by (destruct SM as [-> | ->]; unfold D2; numels; ring). cbn [bind]. rewrite <- DM.
      set (t1 := mkT [b; c2; h2; w2] (data M')). rewrite (mv4a n0 t1 b c2 h2 w2) by reflexivity. set (t2 := tab4 b c2 h2 w2 _).
      assert (Q2 : numel (shape t2) = b * numel [c2; h2; w2]) by (cbn [t2 shape tab4 tab]; numels; ring).
      rewrite (reshape_1m_eq [c2; h2; w2] t2 b); [|numels; nia|exact Q2].
      rewrite reshape_ok by (rewrite Q2; numels; ring). cbn [bind].
      rewrite (tr_conv_ok (sq W) _ b) by auto. cbn [bind]. set (t4 := tab4 b c1 h1 w1 _).
      rewrite reshape_ok by (cbn [t4 shape tab4 tab]; numels; ring). cbn [bind].
      set (t5 := mkT [b; c1; h1; w1] (data t4)). rewrite (mv4b n0 t5 b c1 h1 w1) by reflexivity. set (t6 := tab4 b c1 h1 w1 _).
      rewrite reshape_ok by (cbn [t6 shape tab4 tab]; numels; ring). f_equal.
      apply (tab2_eq n0); [|reflexivity|].
      { apply wf_mkT_reshape; [apply wf_tab|cbn [t6 shape tab4 tab]; unfold D1; numels; ring]. }
      intros q j Hq Hj. rewrite pull_at_diag. destruct (chw_ex c1 h1 w1 j Hj) as (c & y1 & x1 & Hc & Hy & Hx & ->).
      rewrite (get_mkT n0 _ t6 _ [q; c; y1; x1]) by (cbn [shape t6 tab4 tab ravel]; unfold chw; numels; ring).
      unfold t6. rewrite get_tab4 by auto. unfold t5.
      change (gt (mkT [b; c1; h1; w1] (data t4)) [q; c; y1; x1]) with (gt t4 [q; c; y1; x1]).
      unfold t4. rewrite get_tab4 by auto. apply bsum_ext. intros i Hi. rewrite JX_sq by (auto; apply chw_lt; auto).
      destruct (chw_ex c2 h2 w2 i Hi) as (o & y2 & x2 & Ho & Hy2 & Hx2 & ->).
      rewrite chw_div, chw_divmod, chw_mod by auto.
      change (gt (mkT [b; c2; h2; w2] (data t2)) [q; o; y2; x2]) with (gt t2 [q; o; y2; x2]).
      unfold t2. rewrite get_tab4 by auto. unfold t1.
      rewrite (get_mkT n0 _ M' _ [q; chw h2 w2 o y2 x2]) by (rewrite SM'; cbn [ravel]; unfold chw, D2; numels; ring). ring.
    Qed.

    (** *** jTmjp, weight *)
    Lemma conv_half_ok m rx r q (V : nat -> nat -> K) : 0 < r -> wf m -> shape m = [c2; 1; h2; w2; r] -> is_img rx q ->
      (forall o y x2 a, o < c2 -> y < h2 -> x2 < w2 -> a < r -> gt m [o; 0; h2 - 1 - y; w2 - 1 - x2; a] = V a (chw h2 w2 o y x2)) ->
      conv_half cfg W bias c1 c2 h2 w2 r rx m = Ok (tab2 np r (fun p a => bsum D2 (fun i => nmul (V a i) (JWc q i p)))).
    Proof.
      intros Hr Wm Sm Im E. unfold conv_half. rewrite (single_JW m rx r q V) by auto. cbn [bind].
      rewrite npE. destruct biasE as [B0|[bi B0]]; rewrite B0.
      - now rewrite Nat.add_0_r.
      - assert (Qm : numel (shape m) = numel [c2; h2; w2] * r) by (rewrite Sm; numels; ring).
        rewrite (reshape_m1_eq [c2; h2; w2] m r); [|numels; nia|exact Qm].
        cbn [app]. rewrite reshape_ok by (rewrite Qm; numels; ring). cbn [bind].
        rewrite (es_chwv_to_cv _ c2 h2 w2 r) by reflexivity. cbn [bind].
        rewrite (cat0_2 n0 _ _ r NW c2) by reflexivity. f_equal.
        apply tab2_ext. intros p a Hp Ha. destruct (Nat.ltb_spec p NW).
        + now rewrite get_tab2 by auto.
        + rewrite get_tab2 by lia. assert (exists o, p = NW + o) as [o ->] by (exists (p - NW); lia). replace (NW + o - NW) with o by lia.
          rewrite (JW_sum_bias q (fun i => V a i)) by lia.
          rewrite <- (bsum_img (fun y2 x2 => gt (mkT [c2; h2; w2; r] (data m)) [o; y2; x2; a])).
          apply bsum_ext; intros y2 Hy2; apply bsum_ext; intros x2 Hx2. rewrite <- E by (auto; lia).
          apply get_mkT. rewrite Sm. cbn [ravel]. numels. ring.
    Qed.
    Lemma np_pos : 0 < np.
    Proof. rewrite npE. unfold NW. assert (0 < c2 * c1) by nia. assert (0 < c2 * c1 * KH) by nia. assert (0 < c2 * c1 * KH * KW) by nia. lia. Qed.
    Lemma conv_full_single_ok xi mi q : q < b -> shape xi = [1; c1; h1; w1] -> wf mi -> shape mi = [1; D2; D2] ->
      (forall c y0 x0, c < c1 -> y0 < h1 -> x0 < w1 -> gt xi [0; c; y0; x0] = gt x [q; c; y0; x0]) ->
      forall M, (forall i k, i < D2 -> k < D2 -> gt mi [0; i; k] = M q i k) ->
      conv_full_single cfg W bias c1 c2 h2 w2 xi mi = Ok (tab2 np np (pull_at D2 JWc M q)).
    Proof.
      intros Hq Sxi Wmi Smi Ex M EM. unfold conv_full_single. fold D2. pose proof D2_pos. pose proof np_pos.
      pose proof (img_of xi q Sxi Ex) as Im. set (rx := movedim n0 [0%Z] [1%Z] (flip n0 [-2; -1]%Z xi)) in *.
      rewrite reshape_ok by (rewrite (mv3_m1 n0 mi 1 D2 D2 Smi); cbn [shape tab3 tab]; unfold D2; numels; ring). cbn [bind].
      fold (mflip D2 1 mi). set (ft := mflip D2 1 mi). rewrite (mv5_01 n0 ft 1 c2 h2 w2 D2) by reflexivity.
      rewrite (conv_half_ok _ rx D2 q (fun a i => M q a i)); [|auto|apply wf_tab|reflexivity|auto|].
      2:{ intros o y2 x2 a Ho Hy Hx Ha. rewrite get_tab5 by lia. unfold ft. rewrite mflip_get by (auto; lia).
          apply EM; auto. apply chw_lt; auto. }
      cbn [bind]. set (r := tab2 np D2 _). fold np.
      rewrite (mv2_m1 n0 r np D2) by reflexivity. set (r' := tab2 D2 np _).
      rewrite reshape_ok by (cbn [r' shape tab2 tab]; unfold D2; numels; ring). cbn [bind].
      set (t5 := mkT [1; c2; h2; w2; np] (data r')). rewrite (flip5_23 n0 t5 1 c2 h2 w2 np) by reflexivity.
      set (t6 := tab5 1 c2 h2 w2 np _). rewrite (mv5_01 n0 t6 1 c2 h2 w2 np) by reflexivity.
      rewrite (conv_half_ok _ rx np q (fun a i => bsum D2 (fun k => nmul (M q i k) (JWc q k a)))); [|auto|apply wf_tab|reflexivity|auto|].
      - f_equal. apply tab2_ext. intros p a Hp Ha. unfold pull_at. apply bsum_ext. intros i Hi. rewrite <- bsum_mul_r.
        apply bsum_ext. intros k Hk. ring.
      - intros o y2 x2 a Ho Hy Hx Ha. rewrite get_tab5 by lia. unfold t6. rewrite get_tab5 by lia.
        replace (h2 - 1 - (h2 - 1 - y2)) with y2 by lia. replace (w2 - 1 - (w2 - 1 - x2)) with x2 by lia.
        unfold t5. rewrite (get_mkT n0 _ r' _ [chw h2 w2 o y2 x2; a]) by (cbn [shape r' tab2 tab ravel]; unfold chw; numels; ring).
        assert (L : chw h2 w2 o y2 x2 < D2) by (apply chw_lt; auto).
        unfold r'. rewrite get_tab2 by auto. unfold r. now rewrite get_tab2 by auto.
    Qed.
    Lemma conv_w_full M : wf M -> shape M = [b; D2; D2] -> conv_jTmjp_w_full cfg W bias x y M = Ok (pull b D2 np JWc false false M).
    Proof.
      intros WM SM. unfold conv_jTmjp_w_full, unpack4. rewrite Sx, conv_y. cbn [bind]. rewrite SM. fold D2. rewrite shape_eqb_refl. cbn [check].
      fold np.
      transitivity (Ok (tab [b; np; np] (fun idx => pull_at D2 JWc (metric false M) (hd 0 idx) (nth 0 (tl idx) 0) (nth 1 (tl idx) 0)))).
      2:{ apply f_equal. unfold pull, present, tab3. apply tab_ext. intros idx V. didx idx V. reflexivity. }
      destruct (cvmap cfg).
      - apply (vmap2_ok n0 n0 n0 _ x M b [c1; h1; w1] [D2; D2] [np; np] (fun q idx => pull_at D2 JWc (metric false M) q (nth 0 idx 0) (nth 1 idx 0))); auto.
        intros q Hq. rewrite (unsq4 x b c1 h1 w1 q), (unsq3 M b D2 D2 q) by auto.
        apply (conv_full_single_ok _ _ q); auto; try apply wf_tab.
        + intros. rewrite get_tab4 by lia. now rewrite Nat.add_0_r.
        + intros. rewrite get_tab3 by lia. now rewrite Nat.add_0_r.
      - apply (loop_rows_ok b [np; np] _ (fun q idx => pull_at D2 JWc (metric false M) q (nth 0 idx 0) (nth 1 idx 0))).
        intros q Hq. rewrite (row0_4 x b c1 h1 w1 q), (row0_3 M b D2 D2 q) by auto. cbn [bind].
        apply (conv_full_single_ok _ _ q); auto; try apply wf_tab.
        + intros. rewrite get_tab4 by lia. now rewrite Nat.add_0_r.
        + intros. rewrite get_tab3 by lia. now rewrite Nat.add_0_r.
    Qed.

    (** diag -> diag *)
    Lemma JW_sq_sum q (f : nat -> K) o c u v : o < c2 -> c < c1 -> u < KH -> v < KW ->
      bsum D2 (fun i => nmul (f i) (nmul (JWc q i (p4 c1 KH KW o c u v)) (JWc q i (p4 c1 KH KW o c u v)))) =
      bsum h2 (fun y => bsum w2 (fun x2 => nmul (f (chw h2 w2 o y x2))
        (pad0 h1 w1 ph pw (fun y0 x0 => nmul (gt x [q; c; y0; x0]) (gt x [q; c; y0; x0])) (y + u) (x2 + v)))).
    Proof.
      intros Ho Hc Hu Hv. pose proof (p4_lt c2 c1 KH KW o c u v Ho Hc Hu Hv) as Hp.
      rewrite (bsum_ext D2 _ (fun i => nmul (nmul (f i) (JWc q i (p4 c1 KH KW o c u v))) (JWc q i (p4 c1 KH KW o c u v)))) by (intros; ring).
      rewrite (JW_sum q (fun i => nmul (f i) (JWc q i (p4 c1 KH KW o c u v)))) by auto. rewrite p4_o, p4_c, p4_u, p4_v by auto.
      apply bsum_ext; intros y2 Hy2; apply bsum_ext; intros x2 Hx2. rewrite JWc_at by auto. rewrite delta_refl, pget_pad0.
      unfold pad0. destruct (_ && _); [|ring]. destruct (_ && _); ring.
    Qed.
    Lemma JW_sq_sum_bias q (f : nat -> K) o : o < c2 ->
      bsum D2 (fun i => nmul (f i) (nmul (JWc q i (NW + o)) (JWc q i (NW + o)))) =
      bsum h2 (fun y => bsum w2 (fun x2 => f (chw h2 w2 o y x2))).
    Proof.
      intros Ho. rewrite (bsum_ext D2 _ (fun i => nmul (nmul (f i) (JWc q i (NW + o))) (JWc q i (NW + o)))) by (intros; ring).
      rewrite (JW_sum_bias q (fun i => nmul (f i) (JWc q i (NW + o)))) by auto.
      apply bsum_ext; intros y2 Hy2; apply bsum_ext; intros x2 Hx2. rewrite JWc_bias by auto. rewrite delta_refl. ring.
    Qed.
    Lemma conv_dd_single_ok wsq m q (V : nat -> K) : wf m -> shape m = [c2; 1; h2; w2] -> shape wsq = [c1; 1; h1; w1] ->
      (forall c y0 x0, c < c1 -> y0 < h1 -> x0 < w1 -> gt wsq [c1 - 1 - c; 0; h1 - 1 - y0; w1 - 1 - x0] = nmul (gt x [q; c; y0; x0]) (gt x [q; c; y0; x0])) ->
      (forall o y x2, o < c2 -> y < h2 -> x2 < w2 -> gt m [c2 - 1 - o; 0; h2 - 1 - y; w2 - 1 - x2] = V (chw h2 w2 o y x2)) ->
      conv_dd_single cfg W c1 c2 h2 w2 wsq m = Ok (tab [NW] (fun idx => bsum D2 (fun i => nmul (V i) (nmul (JWc q i (hd 0 idx)) (JWc q i (hd 0 idx)))))).
    Proof.
      intros Wm Sm Sw Ew Em. unfold conv_dd_single. rewrite (mv4a n0 m _ _ _ _ Sm). set (t1 := tab4 c2 1 h2 w2 _).
      rewrite (reshape_1m_eq [1; h2; w2] t1 c2); [|numels; nia|cbn [t1 shape tab4 tab]; numels; ring].
      rewrite reshape_ok by (cbn [t1 shape tab4 tab]; numels; ring). cbn [bind].
      rewrite (dw_conv_ok _ wsq c2 c1) by auto. cbn [bind]. rewrite NWE, khE, kwE. set (t2 := tab4 c2 c1 KH KW _).
      rewrite reshape_ok by (cbn [t2 shape tab4 tab]; numels; ring). cbn [bind].
      change (mkT [c2; c1; KH; KW] (data t2)) with t2. rewrite (mv4b n0 t2 c2 c1 KH KW) by reflexivity. set (t3 := tab4 c2 c1 KH KW _).
      rewrite (flip4_01 n0 t3 c2 c1 KH KW) by reflexivity. set (t4 := tab4 c2 c1 KH KW _).
      rewrite reshape_ok by (cbn [t4 shape tab4 tab]; unfold NW; numels; ring). f_equal.
      apply (tab_eq n0); [|reflexivity|].
      { apply wf_mkT_reshape; [apply wf_tab|cbn [t4 shape tab4 tab]; unfold NW; numels; ring]. }
      intros idx Vx. didx idx Vx. match goal with |- context [gt _ [?a]] => rename a into p end. cbn [hd].
      assert (Hp : p < NW) by auto. destruct (p4_ex c2 c1 KH KW p Hp) as (o & c & u & v & Ho & Hc & Hu & Hv & ->).
      rewrite JW_sq_sum by auto.
      rewrite (get_mkT n0 _ t4 _ [o; c; u; v]) by (cbn [shape t4 tab4 tab ravel]; unfold p4; numels; ring).
      unfold t4. rewrite get_tab4 by auto. unfold t3. rewrite get_tab4 by lia. unfold t2. rewrite get_tab4 by lia.
      apply bsum_ext; intros y2 Hy2; apply bsum_ext; intros x2 Hx2. f_equal.
      - change (mkT [c2; 1; h2; w2] (data t1)) with t1. unfold t1. rewrite get_tab4 by lia. now apply Em.
      - unfold imgf. apply pad0_ext. intros. now apply Ew.
    Qed.
    Lemma conv_w_dd M : wf M -> shape M = [b; D2] \/ shape M = [b; c2; h2; w2] -> forall M', wf M' -> shape M' = [b; D2] -> data M' = data M ->
      conv_jTmjp_w_dd cfg W bias x y M = Ok (pull b D2 np JWc true true M').
    Proof.
      intros WM SM M' WM' SM' DM. unfold conv_jTmjp_w_dd, unpack4. rewrite Sx, conv_y. cbn [bind].
      set (tb := tab2 b c2 (fun q o => bsum (h2 * w2) (fun k => gt (mkT [b; c2; h2 * w2] (data M)) [q; o; k]))).
      match goal with |- (bind ?a _) = _ => assert (E : exists m' bt, a = Ok (m', bt) /\ data m' = data M /\ numel (shape m') = numel (shape M) /\ (bias <> None -> bt = tb)) end.
      { destruct biasE as [B0|[bi B0]]; rewrite B0.
        - exists M, M. repeat split. congruence.
        - rewrite reshape_ok by (destruct SM as [-> | ->]; unfold D2; numels; ring). cbn [bind]. unfold sum2. cbn [shape bind].
          eexists _, _. split; [reflexivity|]. split; [reflexivity|]. split; [|intros _; reflexivity].
          destruct SM as [-> | ->]; cbn [shape]; unfold D2; numels; ring. }
      destruct E as (m' & bt & E & Dm & Nm & Eb). rewrite E. cbn [bind]. clear E.
      rewrite reshape_ok by (rewrite Nm; destruct SM as [-> | ->]; unfold D2; numels; ring). cbn [bind]. rewrite Dm, <- DM.
      set (t1 := mkT [b; c2; h2; w2] (data M')). rewrite (flip4_123 n0 t1 b c2 h2 w2) by reflexivity. set (t2 := tab4 b c2 h2 w2 _).
      rewrite (flip4_123 n0 x _ _ _ _ Sx). set (t3 := sq (tab4 b c1 h1 w1 _)).
      assert (S3 : shape t3 = [b; c1; h1; w1]) by reflexivity.
      assert (G2 : forall q o y2 x2, q < b -> o < c2 -> y2 < h2 -> x2 < w2 -> gt t2 [q; c2 - 1 - o; h2 - 1 - y2; w2 - 1 - x2] = gt M' [q; chw h2 w2 o y2 x2]).
      { intros q o y2 x2 Hq Ho Hy Hx. unfold t2. rewrite get_tab4 by lia. unfold t1. apply get_mkT. rewrite SM'. cbn [ravel].
        replace (c2 - 1 - (c2 - 1 - o)) with o by lia. replace (h2 - 1 - (h2 - 1 - y2)) with y2 by lia. replace (w2 - 1 - (w2 - 1 - x2)) with x2 by lia.
        unfold chw, D2. numels. ring. }
      assert (G3 : forall q c y0 x0, q < b -> c < c1 -> y0 < h1 -> x0 < w1 -> gt t3 [q; c1 - 1 - c; h1 - 1 - y0; w1 - 1 - x0] = nmul (gt x [q; c; y0; x0]) (gt x [q; c; y0; x0])).
      { intros q c y0 x0 Hq Hc Hy Hx. unfold t3, sq. rewrite get_emap; [|apply wf_tab|cbn; repeat split; lia]. rewrite get_tab4 by lia.
        replace (c1 - 1 - (c1 - 1 - c)) with c by lia. replace (h1 - 1 - (h1 - 1 - y0)) with y0 by lia. replace (w1 - 1 - (w1 - 1 - x0)) with x0 by lia. reflexivity. }
      rewrite NWE.
      match goal with |- (bind ?a _) = _ => assert (E : a = Ok (tab [b; NW] (fun idx => bsum D2 (fun i => nmul (gt M' [hd 0 idx; i]) (nmul (JWc (hd 0 idx) i (hd 0 (tl idx))) (JWc (hd 0 idx) i (hd 0 (tl idx)))))))) end.
      { destruct (cvmap cfg).
        - apply (vmap2_ok n0 n0 n0 _ t3 t2 b [c1; h1; w1] [c2; h2; w2] [NW] (fun q idx => bsum D2 (fun i => nmul (gt M' [q; i]) (nmul (JWc q i (hd 0 idx)) (JWc q i (hd 0 idx)))))); auto.
          intros q Hq. rewrite (unsq4 t3 b c1 h1 w1 q), (unsq4 t2 b c2 h2 w2 q) by auto.
          set (u3 := tab4 1 c1 h1 w1 _). set (u2 := tab4 1 c2 h2 w2 _).
          rewrite (mv4_01 n0 u3 1 c1 h1 w1), (mv4_01 n0 u2 1 c2 h2 w2) by reflexivity.
          apply (conv_dd_single_ok _ _ q (fun i => gt M' [q; i])); [apply wf_tab|reflexivity|reflexivity| |].
          + intros c y0 x0 Hc Hy Hx. rewrite get_tab4 by lia. unfold u3. rewrite get_tab4 by lia. rewrite Nat.add_0_r. now apply G3.
          + intros c y0 x0 Hc Hy Hx. rewrite get_tab4 by lia. unfold u2. rewrite get_tab4 by lia. rewrite Nat.add_0_r. now apply G2.
        - apply (loop_rows_ok b [NW] _ (fun q idx => bsum D2 (fun i => nmul (gt M' [q; i]) (nmul (JWc q i (hd 0 idx)) (JWc q i (hd 0 idx)))))).
          intros q Hq. rewrite (mv4_01 n0 t3 b c1 h1 w1), (mv4_01 n0 t2 b c2 h2 w2) by reflexivity.
          set (u3 := tab4 c1 b h1 w1 _). set (u2 := tab4 c2 b h2 w2 _).
          rewrite (row1_4 u3 c1 b h1 w1 q), (row1_4 u2 c2 b h2 w2 q) by auto. cbn [bind].
          apply (conv_dd_single_ok _ _ q (fun i => gt M' [q; i])); [apply wf_tab|reflexivity|reflexivity| |].
          + intros c y0 x0 Hc Hy Hx. rewrite get_tab4 by lia. unfold u3. rewrite get_tab4 by lia. rewrite Nat.add_0_r. now apply G3.
          + intros c y0 x0 Hc Hy Hx. rewrite get_tab4 by lia. unfold u2. rewrite get_tab4 by lia. rewrite Nat.add_0_r. now apply G2. }
      rewrite E. cbn [bind]. clear E.
      assert (PD : forall q p, pull_at D2 JWc (metric true M') q p p = bsum D2 (fun i => nmul (gt M' [q; i]) (nmul (JWc q i p) (JWc q i p)))).
      { intros. rewrite pull_at_diag. apply bsum_ext. intros. ring. }
      unfold pull, present. rewrite npE. destruct biasE as [B0|[bi B0]]; rewrite B0; [|rewrite Eb by congruence].
      - rewrite Nat.add_0_r. apply f_equal. unfold tab2. apply tab_ext. intros idx V. didx idx V. cbn [nth hd tl]. now rewrite PD.
      - rewrite (cat1_2 n0 _ _ b NW c2) by reflexivity. f_equal.
        apply tab2_ext. intros q p Hq Hp. rewrite PD. destruct (Nat.ltb_spec p NW).
        + rewrite get_tab by (cbn; auto). reflexivity.
        + unfold tb. rewrite get_tab2 by lia. assert (exists o, p = NW + o) as [o ->] by (exists (p - NW); lia). replace (NW + o - NW) with o by lia.
          rewrite (JW_sq_sum_bias q (fun i => gt M' [q; i])) by lia. rewrite bsum_prod.
          apply bsum_ext; intros y2 Hy2; apply bsum_ext; intros x2 Hx2. rewrite <- DM. apply get_mkT. rewrite SM'. cbn [ravel]. unfold chw, D2. numels. ring.
    Qed.

    Lemma conv_jTmjp_ok fd td db M : wf M -> shape M = metric_shape fd b D2 ->
      conv_jTmjp cfg W bias x val (Some M) Input fd td db = Ok (Some (pull b D2 D1 (JXc W) fd td M)) /\
      conv_jTmjp cfg W bias x val (Some M) Weight fd td db = Ok (Some (pull b D2 np JWc fd td M)).
    Proof.
      intros WM SM. unfold conv_jTmjp. rewrite conv_val_ok. cbn [bind]. destruct fd, td; cbn [metric_shape] in SM.
      - now rewrite (conv_in_dd M WM (or_introl SM) M), (conv_w_dd M WM (or_introl SM) M).
      - rewrite diag_embed2 with (b := b) (n := D2) by auto. cbn [bind].
        rewrite conv_in_full, conv_w_full by (try apply wf_tab; reflexivity). now rewrite !pull_embed.
      - rewrite conv_in_full, conv_w_full by auto. cbn [bind]. now rewrite !pull_diagonal.
      - now rewrite conv_in_full, conv_w_full by auto.
    Qed.
  End C.

  Lemma conv_spec cfg W bias s s' : let l := Conv2d cfg W bias in leaf_typed l s s' ->
    leaf_fwd_spec l s s' /\ leaf_jac_spec l s s' /\ leaf_vjp_spec l s s' /\
    leaf_mjp_spec l s s' /\ leaf_pull_spec l s s'.
  Proof.
    intros l (N & N' & Ty). change (conv_ok cfg W bias s s') in Ty. unfold conv_ok in Ty. destruct s as [|c1 [|h1 [|w1 [|? ?]]]]; try contradiction.
    destruct s' as [|c2 [|h2 [|w2 [|? ?]]]]; try contradiction. destruct (shape W) as [|c2' [|c1' [|KH [|KW [|? ?]]]]] eqn:SW; try contradiction.
    destruct Ty as (-> & -> & Bo & WW & Hst & Hdi & Hgr & Hmo & Hph & Hpw & Hh & Hw & Hc1 & Hc2 & Hh1 & Hw1 & Hh2 & Hw2).
    destruct (cpad cfg) as [ph pw] eqn:Hpa. cbn [fst snd] in *. rewrite <- Hpa in Hmo.
    assert (E1 : numel [c1; h1; w1] = c1 * h1 * w1) by (numels; ring).
    assert (E2 : numel [c2; h2; w2] = c2 * h2 * w2) by (numels; ring).
    assert (JXe : forall b x, shape x = [b; c1; h1; w1] -> leaf_JX l x = conv_JX W KH KW ph pw h1 w1 h2 w2).
    { intros b x Sx. cbn. unfold kh, kw, dim. rewrite Sx, SW, Hpa. cbn [fst snd nth]. f_equal; lia. }
    assert (JWe : forall b x, shape x = [b; c1; h1; w1] -> leaf_JW l x = conv_JW x c1 c2 KH KW ph pw h1 w1 h2 w2).
    { intros b x Sx. cbn. unfold kh, kw, dim. rewrite Sx, SW, Hpa. cbn [fst snd nth]. f_equal; lia. }
    assert (NP : forall A (t : A), wopt (leaf_n_params l) t = Some t).
    { intros A t. unfold wopt. cbn [leaf_n_params l]. unfold conv_n_params. rewrite SW.
      assert (Q : 0 < numel [c2; c1; KH; KW]) by (numels; rewrite Nat.mul_1_r; assert (0 < KH * KW) by nia; assert (0 < c1 * (KH * KW)) by nia; nia).
      destruct (Nat.eqb_spec (numel [c2; c1; KH; KW] + match bias with Some _ => dim W 0 | None => 0 end) 0); auto; lia. }
    repeat match goal with |- _ /\ _ => split end; unfold leaf_jac_spec, leaf_vjp_spec, leaf_mjp_spec, leaf_pull_spec,
      with_val; rewrite ?E1, ?E2.
    - intros b x Hb Wx Sx. cbn [leaf_forward l].
      eexists. split; [eapply conv_fwd_ok; eauto|]. split; [apply wf_tab|reflexivity].
    - intros b x y val Hb Wx Sx Fy V. rewrite (JXe b x Sx), (JWe b x Sx), NP. eapply conv_jac_ok; eauto.
    - intros b x y val Hb Wx Sx Fy V v Wv Sv. rewrite (JXe b x Sx), (JWe b x Sx), NP. split.
      + eapply conv_vjp_in; eauto.
      + eapply conv_vjp_w; eauto.
    - intros b x y val Hb Wx Sx Fy V r M Hr WM SM. rewrite (JXe b x Sx), (JWe b x Sx), NP. eapply conv_mjp_ok; eauto.
    - intros b x y val Hb Wx Sx Fy V fd td db M F WM SM. rewrite (JXe b x Sx), (JWe b x Sx), NP. eapply conv_jTmjp_ok; eauto.
  Qed.
End LC.
