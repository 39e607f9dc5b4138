(** Conv2d: the derivative of a convolution written out by coordinates, and the layer's products
    against it. *)
From Coq Require Import String Ascii List Arith ZArith Lia Bool.
From Verif Require Import Scalar Sums Tensor TensorLemmas EinsumLemmas Conv Abstract Simple LinearLayer ConvLayer PoolLayer
  Module Spec OpLemmas ReshapeLemmas Jac LeafSpec LeafUpsample ConvBase ConvRaise LeafConv.
Import ListNotations.
Local Open Scope nat_scope.
Local Open Scope list_scope.

Section Spec.
  Context {K} `{Num K}.
  Notation gt := (get (@n0 K _)).
  Notation T := (tensor K).

  (** derivative of output pixel (o, y, z) by input pixel (c, y1, z1): the kernel entries that read it *)
  Definition conv_dx (cfg : conv_cfg) (W : T) (o y z c y1 z1 : nat) : K :=
    bsum (kh W) (fun u => bsum (kw W) (fun v =>
      if (y + u * fst (cdil cfg) =? y1 + fst (cpad cfg)) && (z + v * snd (cdil cfg) =? z1 + snd (cpad cfg))
      then gt W [o; c; u; v] else n0)).
  (** derivative of output pixel (_, y, z) of sample q by kernel entry (_, c, u, v): the input pixel it
      reads, 0 in the padding *)
  Definition conv_dw (cfg : conv_cfg) (x : T) (h1 w1 q c y z u v : nat) : K :=
    let ph := fst (cpad cfg) in let pw := snd (cpad cfg) in
    let i := y + u * fst (cdil cfg) in let j := z + v * snd (cdil cfg) in
    if ((ph <=? i) && (i <? h1 + ph)) && ((pw <=? j) && (j <? w1 + pw)) then gt x [q; c; i - ph; j - pw] else n0.

  (** J is the Jacobian with respect to the input; images are flattened row-major *)
  Definition is_conv_dx (cfg : conv_cfg) (W : T) (b c1 h1 w1 c2 h2 w2 : nat) (J : T) : Prop :=
    forall q o y z c y1 z1, q < b -> o < c2 -> y < h2 -> z < w2 -> c < c1 -> y1 < h1 -> z1 < w1 ->
    entry J q ((o * h2 + y) * w2 + z) ((c * h1 + y1) * w1 + z1) = conv_dx cfg W o y z c y1 z1.
  (** J is the Jacobian with respect to the parameters: the kernel row-major, then the bias *)
  Definition is_conv_dw (cfg : conv_cfg) (W x : T) (bias : option T) (b c1 h1 w1 c2 h2 w2 : nat) (J : T) : Prop :=
    (forall q o y z o' c u v, q < b -> o < c2 -> y < h2 -> z < w2 -> o' < c2 -> c < c1 -> u < kh W -> v < kw W ->
       entry J q ((o * h2 + y) * w2 + z) (((o' * c1 + c) * kh W + u) * kw W + v) =
       if o =? o' then conv_dw cfg x h1 w1 q c y z u v else n0) /\
    (bias <> None -> forall q o y z o', q < b -> o < c2 -> y < h2 -> z < w2 -> o' < c2 ->
       entry J q ((o * h2 + y) * w2 + z) (c2 * c1 * kh W * kw W + o') = if o =? o' then n1 else n0).

  (** the same layer with the other code path for backward products *)
  Definition with_vmap (cfg : conv_cfg) (p : bool) : conv_cfg :=
    {| cstride := cstride cfg; cpad := cpad cfg; cdil := cdil cfg; cgroups := cgroups cfg; cmode := cmode cfg; cvmap := p |}.
End Spec.

Lemma dil_plain d k n u : dil_ok d k n -> u < k -> u * d = u.
Proof. intros (P & [-> | [-> _]]) Hu; [lia|]. assert (u = 0) as -> by lia. reflexivity. Qed.

Section CE.
  Context {K} `{CR : CRing K}.
  Add Ring Kring : (cring : ring_theory n0 n1 nadd nmul nsub nopp (@eq K)).
  Notation gt := (get (@n0 K _)).
  Notation T := (tensor K).

  Section C.
    Variables (cfg : conv_cfg) (W : T) (bias : option T) (c1 h1 w1 c2 h2 w2 b : nat) (x : T).
    Hypothesis (Ty : conv_ok cfg W bias [c1; h1; w1] [c2; h2; w2]).
    Hypothesis (Hb : 0 < b) (Wx : wf x) (Sx : shape x = [b; c1; h1; w1]).
    Notation l := (Conv2d cfg W bias).

    Lemma conv_leaf : leaf_typed l [c1; h1; w1] [c2; h2; w2].
    Proof.
      unfold leaf_typed. pose proof Ty as Ty0. unfold conv_ok in Ty. destruct (shape W) as [|c2' [|c1' [|KH [|KW [|? ?]]]]]; try contradiction.
      destruct Ty as (-> & -> & Bo & WW & Hst & Hdi & Hgr & Hmo & Hph & Hpw & Hh & Hw & Hc1 & Hc2 & Hh1 & Hw1 & Hh2 & Hw2).
      split; [|split; auto]; numels; rewrite ?Nat.mul_1_r; repeat apply Nat.mul_pos_pos; auto.
    Qed.

    Lemma dx_entries : is_conv_dx cfg W b c1 h1 w1 c2 h2 w2 (dense b (c2 * h2 * w2) (c1 * h1 * w1) (leaf_JX l x)).
    Proof.
      unfold conv_ok in Ty. destruct (shape W) as [|c2' [|c1' [|KH [|KW [|? ?]]]]] eqn:SW; try contradiction.
      destruct Ty as (-> & -> & Bo & WW & Hst & [Dh Dw] & Hgr & Hmo & Hph & Hpw & Hh & Hw & Hc1 & Hc2 & Hh1 & Hw1 & Hh2 & Hw2).
      intros q o y z c y1 z1 Hq Ho Hy Hz Hc Hy1 Hz1. unfold entry, dense.
      rewrite get_tab3; auto. 2: apply (chw_lt c2 h2 w2 o y z); auto. 2: apply (chw_lt c1 h1 w1 c y1 z1); auto.
      cbn [leaf_JX]. unfold kh, kw, dim, conv_JX, conv_dx, kh, kw, dim. rewrite SW, Sx. cbn [nth].
      replace (h1 + 2 * fst (cpad cfg) - KH + 1) with h2 by lia. replace (w1 + 2 * snd (cpad cfg) - KW + 1) with w2 by lia.
      change ((o * h2 + y) * w2 + z) with (chw h2 w2 o y z). change ((c * h1 + y1) * w1 + z1) with (chw h1 w1 c y1 z1).
      rewrite !chw_div, !chw_divmod, !chw_mod by auto. apply bsum_ext; intros u Hu; apply bsum_ext; intros v Hv.
      rewrite (dil_plain _ _ _ u Dh Hu), (dil_plain _ _ _ v Dw Hv). reflexivity.
    Qed.
    Lemma dw_entries : is_conv_dw cfg W x bias b c1 h1 w1 c2 h2 w2 (dense b (c2 * h2 * w2) (leaf_n_params l) (leaf_JW l x)).
    Proof.
      unfold conv_ok in Ty. destruct (shape W) as [|c2' [|c1' [|KH [|KW [|? ?]]]]] eqn:SW; try contradiction.
      destruct Ty as (-> & -> & Bo & WW & Hst & [Dh Dw] & Hgr & Hmo & Hph & Hpw & Hh & Hw & Hc1 & Hc2 & Hh1 & Hw1 & Hh2 & Hw2).
      assert (Np : leaf_n_params l = c2 * c1 * KH * KW + match bias with Some _ => c2 | None => 0 end).
      { cbn [leaf_n_params]. unfold conv_n_params, dim. rewrite SW. cbn [nth]. numels. destruct bias; ring. }
      split.
      - intros q o y z o' c u v Hq Ho Hy Hz Ho' Hc Hu Hv. unfold kh, kw, dim in *. rewrite SW in *. cbn [nth] in *. unfold entry, dense.
        pose proof (p4_lt c2 c1 KH KW o' c u v Ho' Hc Hu Hv) as Lp. unfold p4 in Lp.
        rewrite get_tab3; auto. 2: apply (chw_lt c2 h2 w2 o y z); auto. 2: rewrite Np; lia.
        cbn [leaf_JW]. unfold kh, kw, dim, conv_JW. rewrite SW, Sx. cbn [nth].
        replace (h1 + 2 * fst (cpad cfg) - KH + 1) with h2 by lia. replace (w1 + 2 * snd (cpad cfg) - KW + 1) with w2 by lia.
        rewrite (proj2 (Nat.ltb_lt _ _) Lp).
        change ((o * h2 + y) * w2 + z) with (chw h2 w2 o y z). change (((o' * c1 + c) * KH + u) * KW + v) with (p4 c1 KH KW o' c u v).
        rewrite !chw_div, !chw_divmod, !chw_mod by auto. rewrite p4_o, p4_c, p4_u, p4_v by auto.
        destruct (Nat.eqb_spec o o') as [->|Ne]; [|rewrite delta_neq by auto; ring].
        rewrite delta_refl. unfold pget, pad_src, conv_dw. rewrite (dil_plain _ _ _ u Dh Hu), (dil_plain _ _ _ v Dw Hv).
        destruct ((fst (cpad cfg) <=? y + u) && (y + u <? h1 + fst (cpad cfg))), ((snd (cpad cfg) <=? z + v) && (z + v <? w1 + snd (cpad cfg))); cbn [andb]; ring.
      - intros Bn q o y z o' Hq Ho Hy Hz Ho'. unfold kh, kw, dim in *. rewrite SW in *. cbn [nth] in *. unfold entry, dense.
        destruct bias as [t|] eqn:Eb; [|congruence].
        rewrite get_tab3; auto. 2: apply (chw_lt c2 h2 w2 o y z); auto. 2: rewrite Np; lia.
        cbn [leaf_JW]. unfold kh, kw, dim, conv_JW. rewrite SW, Sx. cbn [nth].
        replace (h1 + 2 * fst (cpad cfg) - KH + 1) with h2 by lia. replace (w1 + 2 * snd (cpad cfg) - KW + 1) with w2 by lia.
        destruct (Nat.ltb_spec (c2 * c1 * KH * KW + o') (c2 * c1 * KH * KW)); [lia|].
        replace (c2 * c1 * KH * KW + o' - c2 * c1 * KH * KW) with o' by lia.
        change ((o * h2 + y) * w2 + z) with (chw h2 w2 o y z). rewrite chw_div by auto.
        destruct (Nat.eqb_spec o o') as [->|Ne]; [now rewrite delta_refl|now rewrite delta_neq].
    Qed.

    (** jacobian, vjp, mjp, jTmjp against the coordinates *)
    Lemma conv_exact : exists JX JW y : T,
      wf JX /\ shape JX = [b; c2 * h2 * w2; c1 * h1 * w1] /\ is_conv_dx cfg W b c1 h1 w1 c2 h2 w2 JX /\
      wf JW /\ shape JW = [b; c2 * h2 * w2; n_params (Leaf l)] /\ is_conv_dw cfg W x bias b c1 h1 w1 c2 h2 w2 JW /\
      fwd (Leaf l) x = Ok y /\
      forall (h : st K) val, val = None \/ val = Some y ->
        snd (jacobian (Leaf l) h x val Input) = Ok (Some JX) /\
        snd (jacobian (Leaf l) h x val Weight) = Ok (Some JW) /\
        (forall v, wf v -> shape v = [b; c2 * h2 * w2] ->
           snd (vjp (Leaf l) h x val v Input) = Ok (Some (vJ b (c2 * h2 * w2) (c1 * h1 * w1) (entry JX) v)) /\
           snd (vjp (Leaf l) h x val v Weight) = Ok (Some (vJ b (c2 * h2 * w2) (n_params (Leaf l)) (entry JW) v))) /\
        (forall r M, 0 < r -> wf M -> shape M = [b; r; c2 * h2 * w2] ->
           snd (mjp (Leaf l) h x val (Some M) Input) = Ok (Some (MJ b r (c2 * h2 * w2) (c1 * h1 * w1) (entry JX) M)) /\
           snd (mjp (Leaf l) h x val (Some M) Weight) = Ok (Some (MJ b r (c2 * h2 * w2) (n_params (Leaf l)) (entry JW) M))) /\
        (forall fd td M, wf M -> shape M = metric_shape fd b (c2 * h2 * w2) ->
           snd (jTmjp (Leaf l) h x val (VT M) Input fd td false) = Ok (VT (pull b (c2 * h2 * w2) (c1 * h1 * w1) (entry JX) fd td M)) /\
           snd (jTmjp (Leaf l) h x val (VT M) Weight fd td false) = Ok (VT (pull b (c2 * h2 * w2) (n_params (Leaf l)) (entry JW) fd td M))).
    Proof.
      destruct (conv_spec cfg W bias _ _ conv_leaf) as (F & J & V & M & P).
      destruct (F b x Hb Wx Sx) as (y & Fy & _).
      assert (E1 : numel [c1; h1; w1] = c1 * h1 * w1) by (numels; ring).
      assert (E2 : numel [c2; h2; w2] = c2 * h2 * w2) by (numels; ring).
      exists (dense b (c2 * h2 * w2) (c1 * h1 * w1) (leaf_JX l x)), (dense b (c2 * h2 * w2) (leaf_n_params l) (leaf_JW l x)), y.
      split; [apply wf_tab|]. split; [reflexivity|]. split; [exact dx_entries|]. split; [apply wf_tab|]. split; [reflexivity|].
      split; [exact dw_entries|]. split; [exact Fy|]. intros h val Hval.
      assert (Np : forall A (t : A), wopt (leaf_n_params l) t = Some t).
      { intros A t. unfold wopt. cbn [leaf_n_params]. unfold conv_n_params. unfold conv_ok in Ty.
        destruct (shape W) as [|c2' [|c1' [|KH [|KW [|? ?]]]]]; try contradiction.
        destruct Ty as (-> & -> & _ & _ & _ & _ & _ & _ & Hph & Hpw & _ & _ & Hc1 & Hc2 & _).
        destruct (Nat.eqb_spec (numel [c2; c1; KH; KW] + match bias with Some _ => dim W 0 | None => 0 end) 0); auto. exfalso.
        assert (0 < numel [c2; c1; KH; KW]) by (numels; rewrite Nat.mul_1_r; repeat apply Nat.mul_pos_pos; lia). lia. }
      specialize (J b x y val Hb Wx Sx Fy Hval). specialize (V b x y val Hb Wx Sx Fy Hval).
      specialize (M b x y val Hb Wx Sx Fy Hval). specialize (P b x y val Hb Wx Sx Fy Hval).
      cbn beta in J, V, M, P. rewrite E1, E2 in *.
      assert (QX : Jeq b (c2 * h2 * w2) (c1 * h1 * w1) (entry (dense b (c2 * h2 * w2) (c1 * h1 * w1) (leaf_JX l x))) (leaf_JX l x)).
      { intros q i j Hq Hi Hj. unfold entry, dense. now rewrite get_tab3. }
      assert (QW : Jeq b (c2 * h2 * w2) (leaf_n_params l) (entry (dense b (c2 * h2 * w2) (leaf_n_params l) (leaf_JW l x))) (leaf_JW l x)).
      { intros q i j Hq Hi Hj. unfold entry, dense. now rewrite get_tab3. }
      rewrite Np in J. cbn [jacobian vjp mjp jTmjp snd to_opt bind n_params].
      split; [exact (proj1 J)|]. split; [exact (proj2 J)|]. split; [|split].
      - intros v Wv Sv. rewrite (vJ_Jext _ _ _ _ _ v QX), (vJ_Jext _ _ _ _ _ v QW). destruct (V v Wv Sv) as [V1 V2]. rewrite Np in V2. auto.
      - intros r m Hr Wm Sm. rewrite (MJ_Jext _ _ _ _ _ _ m QX), (MJ_Jext _ _ _ _ _ _ m QW). destruct (M r m Hr Wm Sm) as [V1 V2]. rewrite Np in V2. auto.
      - intros fd td m Wm Sm. rewrite (pull_Jext _ _ _ _ _ _ _ m QX), (pull_Jext _ _ _ _ _ _ _ m QW).
        destruct (P fd td false m ltac:(discriminate) Wm Sm) as [V1 V2]. rewrite Np in V2. rewrite V1, V2. auto.
    Qed.
  End C.

  Lemma conv_ok_vmap cfg (W : T) bias s s' p : conv_ok cfg W bias s s' -> conv_ok (with_vmap cfg p) W bias s s'.
  Proof. exact (fun H => H). Qed.

  (** the two code paths *)
  Lemma conv_paths cfg W bias c1 h1 w1 c2 h2 w2 b (x y : T) : conv_ok cfg W bias [c1; h1; w1] [c2; h2; w2] ->
    0 < b -> wf x -> shape x = [b; c1; h1; w1] -> conv_forward cfg W bias x = Ok y ->
    let la := Leaf (Conv2d (with_vmap cfg true) W bias) in let lb := Leaf (Conv2d (with_vmap cfg false) W bias) in
    forall (h : st K) val w, val = None \/ val = Some y ->
      jacobian la h x val w = jacobian lb h x val w /\
      (forall v, wf v -> shape v = [b; c2 * h2 * w2] -> vjp la h x val v w = vjp lb h x val v w) /\
      (forall r M, 0 < r -> wf M -> shape M = [b; r; c2 * h2 * w2] -> mjp la h x val (Some M) w = mjp lb h x val (Some M) w) /\
      (forall fd td db M, wf M -> shape M = metric_shape fd b (c2 * h2 * w2) -> jTmjp la h x val (VT M) w fd td db = jTmjp lb h x val (VT M) w fd td db).
  Proof.
    intros Ty Hb Wx Sx Fy la lb h val w Hval.
    assert (D : forall p, let l := Conv2d (with_vmap cfg p) W bias in leaf_jac_spec l [c1; h1; w1] [c2; h2; w2] /\ leaf_vjp_spec l [c1; h1; w1] [c2; h2; w2] /\
      leaf_mjp_spec l [c1; h1; w1] [c2; h2; w2] /\ leaf_pull_spec l [c1; h1; w1] [c2; h2; w2]).
    { intros p. apply (conv_spec (with_vmap cfg p) W bias [c1; h1; w1] [c2; h2; w2]). apply conv_leaf. now apply conv_ok_vmap. }
    assert (E2 : numel [c2; h2; w2] = c2 * h2 * w2) by (numels; ring).
    pose proof (D true) as (Ja & Va & Ma & Pa). pose proof (D false) as (Jb & Vb & Mb & Pb). clear D. cbn zeta in *.
    specialize (Ja b x y val Hb Wx Sx Fy Hval). specialize (Va b x y val Hb Wx Sx Fy Hval).
    specialize (Ma b x y val Hb Wx Sx Fy Hval). specialize (Pa b x y val Hb Wx Sx Fy Hval).
    specialize (Jb b x y val Hb Wx Sx Fy Hval). specialize (Vb b x y val Hb Wx Sx Fy Hval).
    specialize (Mb b x y val Hb Wx Sx Fy Hval). specialize (Pb b x y val Hb Wx Sx Fy Hval).
    cbn beta in *. rewrite E2 in *. unfold la, lb. cbn [jacobian vjp mjp jTmjp to_opt bind].
    split; [|split; [|split]].
    - destruct w; [now rewrite (proj1 Ja), (proj1 Jb)|now rewrite (proj2 Ja), (proj2 Jb)|reflexivity].
    - intros v Wv Sv. specialize (Va v Wv Sv). specialize (Vb v Wv Sv).
      destruct w; [now rewrite (proj1 Va), (proj1 Vb)|now rewrite (proj2 Va), (proj2 Vb)|reflexivity].
    - intros r M Hr WM SM. specialize (Ma r M Hr WM SM). specialize (Mb r M Hr WM SM).
      destruct w; [now rewrite (proj1 Ma), (proj1 Mb)|now rewrite (proj2 Ma), (proj2 Mb)|reflexivity].
    - intros fd td db M WM SM. specialize (Pa fd td false M ltac:(discriminate) WM SM). specialize (Pb fd td false M ltac:(discriminate) WM SM).
      assert (Db : forall p w', leaf_jTmjp (Conv2d (with_vmap cfg p) W bias) x val (Some M) w' fd td db = leaf_jTmjp (Conv2d (with_vmap cfg p) W bias) x val (Some M) w' fd td false) by reflexivity.
      rewrite !Db. destruct w; [now rewrite (proj1 Pa), (proj1 Pb)|now rewrite (proj2 Pa), (proj2 Pb)|reflexivity].
  Qed.

  Lemma dil_dec d k n : {dil_ok d k n} + {~ dil_ok d k n}.
  Proof.
    unfold dil_ok. destruct (lt_dec 0 d), (Nat.eq_dec d 1), (Nat.eq_dec k 1), (Nat.eq_dec n 1);
      first [left; split; [assumption|first [now left|right; now split]] | right; intros [A [B|[B C]]]; congruence || lia].
  Qed.
  Lemma supported_dec cfg (W : T) c1 h1 w1 : {supported cfg W c1 h1 w1} + {~ supported cfg W c1 h1 w1}.
  Proof.
    assert (AD : forall A B, {A} + {~ A} -> {B} + {~ B} -> {A /\ B} + {~ (A /\ B)}) by (intros; tauto).
    unfold supported. do 3 (apply AD; [apply lt_dec|]). apply AD; [apply Nat.eq_dec|]. do 2 (apply AD; [apply lt_dec|]). apply AD; apply dil_dec.
  Qed.

  (** Either every weight product raises or every weight product is right. *)
  Lemma conv_dichotomy cfg W bias c1 h1 w1 c2 h2 w2 b (x y : T) :
    cstride cfg = (1, 1) -> cmode cfg = PZeros \/ cpad cfg = (0, 0) -> wf W -> match bias with Some t => wf t | None => True end ->
    0 < b -> wf x -> shape x = [b; c1; h1; w1] -> conv_forward cfg W bias x = Ok y -> shape y = [b; c2; h2; w2] ->
    let l := Leaf (Conv2d cfg W bias) in
    (~ supported cfg W c1 h1 w1 /\ forall (h : st K) val, val = None \/ val = Some y ->
        (exists e, snd (jacobian l h x val Weight) = Raise e) /\
        (forall v, exists e, snd (vjp l h x val v Weight) = Raise e) /\
        (forall r M, 0 < r -> nth_error (shape M) 1 = Some r -> exists e, snd (mjp l h x val (Some M) Weight) = Raise e) /\
        (forall fd td db M, exists e, snd (jTmjp l h x val (VT M) Weight fd td db) = Raise e)) \/
    (supported cfg W c1 h1 w1 /\ exists JW : T, wf JW /\ shape JW = [b; c2 * h2 * w2; n_params l] /\ is_conv_dw cfg W x bias b c1 h1 w1 c2 h2 w2 JW /\
      forall (h : st K) val, val = None \/ val = Some y ->
        snd (jacobian l h x val Weight) = Ok (Some JW) /\
        (forall v, wf v -> shape v = [b; c2 * h2 * w2] ->
           snd (vjp l h x val v Weight) = Ok (Some (vJ b (c2 * h2 * w2) (n_params l) (entry JW) v))) /\
        (forall r M, 0 < r -> wf M -> shape M = [b; r; c2 * h2 * w2] ->
           snd (mjp l h x val (Some M) Weight) = Ok (Some (MJ b r (c2 * h2 * w2) (n_params l) (entry JW) M))) /\
        (forall fd td M, wf M -> shape M = metric_shape fd b (c2 * h2 * w2) ->
           snd (jTmjp l h x val (VT M) Weight fd td false) = Ok (VT (pull b (c2 * h2 * w2) (n_params l) (entry JW) fd td M)))).
  Proof.
    intros Hst Hmo WW Wb Hb Wx Sx Fy Sy l. destruct (supported_dec cfg W c1 h1 w1) as [Su|Ns].
    - right. split; [exact Su|]. destruct Su as (Hc1 & Hh1 & Hw1 & Hg & Hph & Hpw & Dh & Dw).
      assert (Ok' : conv_ok cfg W bias [c1; h1; w1] [c2; h2; w2]).
      { destruct (fwd_inv cfg W bias x y b c1 h1 w1 b c2 h2 w2) as (O1 & O2 & Hc2 & Hh2 & Hw2 & _); auto.
        unfold conv_ok. pose proof Fy as Fy'. unfold conv_forward, conv2d_mode in Fy'. rewrite Sx in Fy'.
        unfold kh, kw, dim in *. destruct (shape W) as [|o [|cg [|KH [|KW [|? ?]]]]] eqn:SW; try discriminate. cbn [nth] in *.
        apply check_ok in Fy' as [C E]. apply check_ok in E as [B E]. apply check_ok in E as [_ E]. rewrite Hst in E. cbn [fst snd] in E. rewrite O1, O2 in E.
        assert (Ey := f_equal (fun r => match r with Ok t => shape t | Raise _ => [] end) E). cbn [shape tab4 tab] in Ey. rewrite Sy in Ey.
        injection Ey as ->. apply andb_prop in C as [C _]. apply andb_prop in C as [C _]. apply andb_prop in C as [_ C]. apply Nat.eqb_eq in C.
        rewrite Hg, Nat.mul_1_l in C.
        assert (Len : forall n k p d m, out_len n k 1 p d = Some m -> dil_ok d k n -> p < k -> m + k = n + 2 * p + 1).
        { clear. intros n k p d m O (D & D') P. unfold out_len in O. rewrite Nat.div_1_r in O.
          destruct ((0 <? k) && (0 <? 1) && (0 <? d) && (d * (k - 1) + 1 <=? n + 2 * p)) eqn:Q; [|discriminate].
          apply andb_prop in Q as [_ Q]. apply Nat.leb_le in Q. injection O as <-. destruct D' as [-> | [-> ->]]; lia. }
        specialize (Len _ _ _ _ _ O1 Dh Hph) as A1. specialize (Len _ _ _ _ _ O2 Dw Hpw) as A2.
        repeat match goal with |- _ /\ _ => split end; auto.
        destruct bias as [t|]; cbn; auto. apply shape_eqb_true in B. auto. }
      destruct (conv_exact cfg W bias c1 h1 w1 c2 h2 w2 b x Ok' Hb Wx Sx) as (JX & JW & y' & _ & _ & _ & WJ & SJ & DJ & Fy' & P).
      change (conv_forward cfg W bias x = Ok y') in Fy'. assert (y' = y) by congruence. subst y'.
      exists JW. split; [exact WJ|]. split; [exact SJ|]. split; [exact DJ|]. intros h val Hval. specialize (P h val Hval).
      destruct P as (_ & P1 & P2 & P3 & P4). split; [exact P1|]. split; [|split].
      + intros v Wv Sv. now apply P2.
      + intros r M Hr WM SM. now apply P3.
      + intros fd td M WM SM. now apply P4.
    - left. split; [exact Ns|]. intros h val Hval. unfold l. cbn [jacobian vjp mjp jTmjp snd to_opt bind leaf_jacobian leaf_vjp leaf_mjp leaf_jTmjp].
      split; [|split; [|split]].
      + destruct (conv_jacobian cfg W bias x val Weight) eqn:E; [|eauto]. exfalso. apply Ns. eapply (jacobian_supported cfg W bias x y b c1 h1 w1 b c2 h2 w2 val); eauto.
      + intros v. destruct (conv_vjp cfg W bias x val v Weight) eqn:E; [|eauto]. exfalso. apply Ns. eapply (vjp_supported cfg W bias x y b c1 h1 w1 b c2 h2 w2 val); eauto.
      + intros r M Hr Sr. destruct (conv_mjp cfg W bias x val (Some M) Weight) eqn:E; [|eauto]. exfalso. apply Ns. eapply (mjp_supported' cfg W bias x y b c1 h1 w1 b c2 h2 w2 val) with (mat := Some M); eauto.
      + intros fd td db M. destruct (conv_jTmjp cfg W bias x val (Some M) Weight fd td db) eqn:E; [|cbn [bind]; eauto]. exfalso. apply Ns. eapply (jTmjp_supported cfg W bias x y b c1 h1 w1 b c2 h2 w2 val); eauto.
  Qed.
End CE.
