(** Each layer's Jacobian formula is the derivative of its forward function along curves of inputs and
    parameters. *)
From Coq Require Import List Arith Lia Bool Reals Lra.
From Verif Require Import Scalar Sums Tensor TensorLemmas Conv Abstract Simple LinearLayer ConvLayer PoolLayer Module Spec Domain Jac
  OpLemmas ReshapeLemmas LeafSpec LeafSimple LeafAct LeafLinear LeafUpsample ConvBase LeafConv LeafPool TreeBase Leaves Params Smooth Calc ReshapeZ.
Import ListNotations.
Local Open Scope nat_scope.
Local Open Scope list_scope.
Notation TR := (tensor R).
Notation gt := (get 0%R).
Local Opaque derivable_pt_lim.

(** a curve of batches of b samples of shape s; velocity d (sample, entry) *)
Definition curve (b : nat) (s : list nat) (c : R -> TR) (t0 : R) (d : nat -> nat -> R) : Prop :=
  (forall t, wf (c t) /\ shape (c t) = b :: s) /\
  forall q i, q < b -> i < numel s -> derivable_pt_lim (fun t => fl (numel s) (c t) q i) t0 (d q i).
Definition pcurve (n : nat) (w : R -> list R) (t0 : R) (dw : nat -> R) : Prop :=
  (forall t, n <= length (w t)) /\ forall p, p < n -> derivable_pt_lim (fun t => nth p (w t) 0%R) t0 (dw p).

Lemma curve_ext b s c t0 d d' : (forall q i, q < b -> i < numel s -> d q i = d' q i) -> curve b s c t0 d -> curve b s c t0 d'.
Proof. intros E [H1 H2]. split; auto. intros q i Hq Hi. rewrite <- E by auto. now apply H2. Qed.

(** getting and setting *)
Definition setl (l : leaf R) (v : list R) : leaf R := fst (leaf_set l v).
Lemma nth_firstn_lt {A} (d : A) n k v : k < n -> nth k (firstn n v) d = nth k v d.
Proof. revert k v; induction n as [|n IH]; intros k v H; [lia|]. destruct v, k; cbn; auto. apply IH. lia. Qed.
Lemma nth_skipn_add {A} (d : A) n k v : nth k (skipn n v) d = nth (n + k) v d.
Proof. revert v; induction n as [|n IH]; intros v; [reflexivity|]. destruct v; [now destruct k|]. cbn. apply IH. Qed.
Lemma pcurve_skip n k w t0 dw : pcurve (n + k) w t0 dw -> pcurve k (fun t => skipn n (w t)) t0 (fun p => dw (n + p)).
Proof.
  intros [H1 H2]. split; [intros t; rewrite skipn_length; specialize (H1 t); lia|]. intros p Hp.
  eapply dl_ext; [|apply (H2 (n + p)); lia]. intros t. cbn. now rewrite nth_skipn_add.
Qed.
Lemma pcurve_le n k w t0 dw : n <= k -> pcurve k w t0 dw -> pcurve n w t0 dw.
Proof. intros L [H1 H2]. split; [intros t; specialize (H1 t); lia|]. intros p Hp. apply H2. lia. Qed.

Definition setW (W : TR) (v : list R) : TR := mkT (shape W) (firstn (numel (shape W)) v).
Definition setB (W : TR) (bias : option TR) (v : list R) : option TR :=
  match bias with None => None | Some t => Some (mkT (shape t) (firstn (numel (shape t)) (skipn (numel (shape W)) v))) end.
Lemma setl_linear W bias v : numel (shape W) + match bias with Some t => numel (shape t) | None => 0 end <= length v ->
  setl (Linear W bias) v = Linear (setW W v) (setB W bias v).
Proof.
  intros L. unfold setl. cbn [leaf_set]. rewrite take_ok by lia. destruct bias as [t|]; [|reflexivity].
  rewrite take_ok by (rewrite skipn_length; lia). reflexivity.
Qed.
Lemma setl_conv cfg W bias v : numel (shape W) + match bias with Some t => numel (shape t) | None => 0 end <= length v ->
  setl (Conv2d cfg W bias) v = Conv2d cfg (setW W v) (setB W bias v).
Proof.
  intros L. unfold setl. cbn [leaf_set]. rewrite take_ok by lia. destruct bias as [t|]; [|reflexivity].
  rewrite take_ok by (rewrite skipn_length; lia). reflexivity.
Qed.
Lemma setB_ok W bias c2 v : bias_ok bias c2 -> numel (shape W) + match bias with Some t => numel (shape t) | None => 0 end <= length v -> bias_ok (setB W bias v) c2.
Proof.
  intros B L. destruct bias as [t|]; cbn; auto. destruct B as [S _]. split; auto. apply take_wf. rewrite skipn_length. lia.
Qed.
Lemma bias_numel (bias : option TR) c2 : bias_ok bias c2 -> match bias with Some t => numel (shape t) | None => 0 end = match bias with Some _ => c2 | None => 0 end.
Proof. destruct bias as [t|]; auto. intros [-> _]. numels. lia. Qed.

(** the shape of a layer's claim *)
Definition leaf_D (l : leaf R) (s s' : list nat) : Prop :=
  forall b c t0 dx w dw, 0 < b -> curve b s c t0 dx -> pcurve (leaf_n_params l) w t0 dw -> leaf_smooth (setl l (w t0)) (c t0) ->
  exists y, (forall t, leaf_forward (setl l (w t)) (c t) = Ok (y t)) /\
    curve b s' y t0 (fun q i => (bsum (numel s) (fun j => leaf_JX (setl l (w t0)) (c t0) q i j * dx q j) +
                                 bsum (leaf_n_params l) (fun p => leaf_JW (setl l (w t0)) (c t0) q i p * dw p))%R).

Lemma fl_get2 (x : TR) b n q i : shape x = [b; n] -> gt x [q; i] = fl n x q i.
Proof. intros S. unfold get, fl. rewrite S. cbn [ravel]. numels. f_equal. ring. Qed.
Lemma fl_get4 (x : TR) b c h w q ch y x1 : shape x = [b; c; h; w] -> gt x [q; ch; y; x1] = fl (numel [c; h; w]) x q (chw h w ch y x1).
Proof. intros S. unfold get, fl. rewrite S. cbn [ravel]. unfold chw. numels. f_equal. ring. Qed.
Lemma fl_tab2 b n f q i : q < b -> i < n -> fl n (@tab2 R b n f) q i = f q i.
Proof. intros Hq Hi. rewrite <- (fl_get2 _ b n) by reflexivity. now rewrite get_tab2. Qed.
Lemma fl_tab4 b c h w f q ch y x1 : q < b -> ch < c -> y < h -> x1 < w -> fl (numel [c; h; w]) (@tab4 R b c h w f) q (chw h w ch y x1) = f q ch y x1.
Proof. intros. rewrite <- (fl_get4 _ b c h w) by reflexivity. now rewrite get_tab4. Qed.

Lemma linear_D W bias s s' : leaf_typed (Linear W bias) s s' -> leaf_D (Linear W bias) s s'.
Proof.
  intros (P1 & P2 & Ty) b c t0 dx w dw Hb [C1 C2] [Q1 Q2] _. cbn in Ty.
  destruct s as [|c1 [|]], s' as [|c2 [|]]; try contradiction. destruct Ty as (SW & WW & Bo).
  pose proof (bias_numel bias c2 Bo) as Eb.
  assert (NW : numel (shape W) = c2 * c1) by (rewrite SW; numels; lia).
  assert (Np : leaf_n_params (Linear W bias) = c2 * c1 + match bias with Some _ => c2 | None => 0 end).
  { cbn. unfold lin_n_params. rewrite NW, Eb. reflexivity. }
  rewrite Np in *.
  assert (L : forall t, numel (shape W) + match bias with Some t => numel (shape t) | None => 0 end <= length (w t)).
  { intros t. rewrite NW, Eb. apply Q1. }
  assert (Sx : forall t, shape (c t) = [b; c1]) by apply C1.
  assert (F : forall t, lin_forward (setW W (w t)) (setB W bias (w t)) (c t) = Ok (tab2 b c2 (fun n k =>
     nadd (bsum c1 (fun j => nmul (fl c1 (c t) n j) (nth (k * c1 + j) (w t) 0%R)))
        match bias with Some _ => nth (c2 * c1 + k) (w t) 0%R | None => 0%R end))).
  { intros t. rewrite (lin_fwd_ok (setW W (w t)) (setB W bias (w t)) c1 c2 b (c t)); auto; [|now apply setB_ok].
    f_equal. apply tab2_ext. intros q i Hq Hi. cbv zeta.
    assert (E : bsum c1 (fun j => nmul (gt (c t) [q; j]) (gt (setW W (w t)) [i; j])) =
      bsum c1 (fun j => nmul (fl c1 (c t) q j) (nth (i * c1 + j) (w t) 0%R))).
    { apply bsum_ext. intros j Hj. rewrite (fl_get2 (c t) b c1) by auto. f_equal. unfold get, setW. cbn [shape data].
      rewrite NW, SW. cbn [ravel]. numels. rewrite nth_firstn_lt by nia. f_equal. ring. }
    cbn [n0 Num_R]. rewrite E.
    destruct bias as [tb|]; cbn [setB].
    - f_equal. unfold get. cbn [shape data]. destruct Bo as [Sb _]. rewrite Sb. cbn [ravel]. numels.
      rewrite nth_firstn_lt by lia. rewrite nth_skipn_add, NW. f_equal. ring.
    - cbn. ring. }
  exists (fun t => tab2 b c2 (fun n k =>
     nadd (bsum c1 (fun j => nmul (fl c1 (c t) n j) (nth (k * c1 + j) (w t) 0%R)))
        match bias with Some _ => nth (c2 * c1 + k) (w t) 0%R | None => 0%R end)).
  split.
  { intros t. rewrite setl_linear by auto. cbn [leaf_forward]. apply F. }
  replace (numel [c1]) with c1 in * by (numels; lia).
  split.
  { intros t. split; [apply wf_tab|reflexivity]. }
  replace (numel [c2]) with c2 in * by (numels; lia).
  intros q i Hq Hi. apply dl_ext with (f := fun t => (bsum c1 (fun j => fl c1 (c t) q j * nth (i * c1 + j) (w t) 0) +
    match bias with Some _ => nth (c2 * c1 + i) (w t) 0 | None => 0 end)%R); [intros t; now rewrite fl_tab2 by auto|].
  rewrite setl_linear by auto. cbn [leaf_JX leaf_JW]. unfold dim. cbn [setW shape]. rewrite SW. cbn [nth].
  assert (R1 : bsum (c2 * c1 + match bias with Some _ => c2 | None => 0 end) (fun p => (lin_JW c1 c2 (c t0) q i p * dw p)%R) =
    nadd (bsum c1 (fun j => nmul (gt (c t0) [q; j]) (dw (i * c1 + j)))) (match bias with Some _ => dw (c2 * c1 + i) | None => n0 end)).
  { apply (lin_row W bias c1 c2 b (c t0) _ Bo ltac:(lia) ltac:(lia) Hb (lin_fwd_ok W bias c1 c2 b (c t0) SW Bo (Sx t0)) q i dw Hi). }
  rewrite R1. clear R1.
  eapply dl_eq.
  - apply dl_plus.
    + apply dl_bsum with (f := fun j t => (fl c1 (c t) q j * nth (i * c1 + j) (w t) 0)%R)
        (d := fun j => (dx q j * nth (i * c1 + j) (w t0) 0 + fl c1 (c t0) q j * dw (i * c1 + j)%nat)%R).
      intros j Hj. refine (dl_mult _ _ _ _ _ _ _); [now apply C2|apply Q2; nia].
    + instantiate (1 := match bias with Some _ => dw (c2 * c1 + i) | None => n0 end).
      destruct bias as [tb|]; [apply Q2; lia|apply dl_const].
  - cbn beta. rewrite bsumR_add.
    rewrite Rplus_assoc. cbn [nadd Num_R]. f_equal.
    + apply bsum_ext. intros j Hj. rewrite Rmult_comm. f_equal. unfold get, setW. cbn [shape data]. rewrite ?NW, ?SW. cbn [ravel]. numels.
      rewrite nth_firstn_lt by nia. f_equal. ring.
    + f_equal. apply bsum_ext. intros j Hj. cbn [nmul Num_R n0]. now rewrite (fl_get2 (c t0) b c1) by auto.
Qed.

(** convolution: sums against the Jacobian rows *)
Section ConvRows.
  Variables (W x : TR) (c1 c2 h1 w1 h2 w2 KH KW ph pw : nat).
  Lemma hit n a c (f : nat -> R) : bsum n (fun u => if c =? u + a then f u else n0) = if (a <=? c) && (c - a <? n) then f (c - a) else n0.
  Proof.
    destruct (Nat.leb_spec a c) as [L|L], (Nat.ltb_spec (c - a) n) as [L'|L']; cbn [andb].
    - rewrite (bsum_single n (c - a)); auto.
      + replace (c =? c - a + a) with true by (symmetry; apply Nat.eqb_eq; lia). reflexivity.
      + intros u Hu Nu. destruct (Nat.eqb_spec c (u + a)); auto; lia.
    - apply bsum_0. intros u Hu. destruct (Nat.eqb_spec c (u + a)); auto; lia.
    - apply bsum_0. intros u Hu. destruct (Nat.eqb_spec c (u + a)); auto; lia.
    - apply bsum_0. intros u Hu. destruct (Nat.eqb_spec c (u + a)); auto; lia.
  Qed.
  Lemma pad0_sum (X : nat -> nat -> R) y x0 : pad0 h1 w1 ph pw X y x0 =
    bsum h1 (fun y1 => bsum w1 (fun x1 => if (y =? y1 + ph) && (x0 =? x1 + pw) then X y1 x1 else n0)).
  Proof.
    transitivity (bsum h1 (fun y1 => if y =? y1 + ph then (if (pw <=? x0) && (x0 - pw <? w1) then X y1 (x0 - pw) else n0) else n0)).
    - rewrite (hit h1 ph y (fun y1 => if (pw <=? x0) && (x0 - pw <? w1) then X y1 (x0 - pw) else n0)). unfold pad0.
      destruct (Nat.leb_spec ph y), (Nat.leb_spec pw x0); cbn [andb];
      repeat match goal with |- context [?a <? ?b] => destruct (Nat.ltb_spec a b); cbn [andb] end; try reflexivity; lia.
    - apply bsum_ext. intros y1 Hy1. rewrite <- (hit w1 pw x0 (fun x1 => X y1 x1)).
      destruct (y =? y1 + ph); cbn [andb]; [reflexivity|]. symmetry. now apply bsum_0.
  Qed.
  Lemma conv_JX_row q o y x2 (f : nat -> R) : y < h2 -> x2 < w2 ->
    bsum (c1 * h1 * w1) (fun j => nmul (conv_JX W KH KW ph pw h1 w1 h2 w2 q (chw h2 w2 o y x2) j) (f j)) =
    bsum c1 (fun c => bsum KH (fun u => bsum KW (fun v =>
      nmul (pad0 h1 w1 ph pw (fun y1 x1 => f (chw h1 w1 c y1 x1)) (y + u) (x2 + v)) (gt W [o; c; u; v])))).
  Proof.
    intros Hy Hx. rewrite bsum_chw. apply bsum_ext. intros c Hc.
    transitivity (bsum h1 (fun y1 => bsum w1 (fun x1 => bsum KH (fun u => bsum KW (fun v =>
      nmul (if (y + u =? y1 + ph) && (x2 + v =? x1 + pw) then f (chw h1 w1 c y1 x1) else n0) (gt W [o; c; u; v])))))).
    - apply bsum_ext; intros y1 Hy1; apply bsum_ext; intros x1 Hx1. unfold conv_JX. cbv zeta. rewrite !chw_div, !chw_divmod, !chw_mod by auto.
      rewrite <- bsum_mul_r. apply bsum_ext; intros u Hu. rewrite <- bsum_mul_r. apply bsum_ext; intros v Hv.
      destruct (_ && _); cbn; ring.
    - transitivity (bsum h1 (fun y1 => bsum KH (fun u => bsum KW (fun v => bsum w1 (fun x1 =>
        nmul (if (y + u =? y1 + ph) && (x2 + v =? x1 + pw) then f (chw h1 w1 c y1 x1) else n0) (gt W [o; c; u; v])))))).
      + apply bsum_ext; intros y1 Hy1. rewrite bsum_swap. apply bsum_ext; intros u Hu. now rewrite bsum_swap.
      + rewrite bsum_swap. apply bsum_ext; intros u Hu. rewrite bsum_swap. apply bsum_ext; intros v Hv.
        rewrite pad0_sum. rewrite <- bsum_mul_r. apply bsum_ext; intros y1 Hy1. now rewrite bsum_mul_r.
  Qed.
  Lemma bsum_p4 (g : nat -> R) : bsum (c2 * c1 * KH * KW) g = bsum c2 (fun o => bsum c1 (fun c => bsum KH (fun u => bsum KW (fun v => g (p4 c1 KH KW o c u v))))).
  Proof.
    rewrite !bsum_prod. apply bsum_ext; intros o Ho; apply bsum_ext; intros c Hc; apply bsum_ext; intros u Hu; apply bsum_ext; intros v Hv.
    reflexivity.
  Qed.
  Lemma conv_JW_row nb q o y x2 (f : nat -> R) : o < c2 -> y < h2 -> x2 < w2 -> nb = 0 \/ nb = c2 ->
    bsum (c2 * c1 * KH * KW + nb) (fun p => nmul (conv_JW x c1 c2 KH KW ph pw h1 w1 h2 w2 q (chw h2 w2 o y x2) p) (f p)) =
    nadd (bsum c1 (fun c => bsum KH (fun u => bsum KW (fun v =>
      nmul (pget PZeros x h1 w1 ph pw q c (y + u) (x2 + v)) (f (p4 c1 KH KW o c u v))))))
      (if nb =? 0 then n0 else f (c2 * c1 * KH * KW + o)).
  Proof.
    intros Ho Hy Hx Hnb. rewrite bsum_app. f_equal.
    - rewrite bsum_p4. rewrite (bsum_single c2 o); auto.
      + apply bsum_ext; intros c Hc; apply bsum_ext; intros u Hu; apply bsum_ext; intros v Hv.
        unfold conv_JW. rewrite p4_o, p4_c, p4_u, p4_v, chw_div, chw_divmod, chw_mod by auto.
        pose proof (p4_lt c2 c1 KH KW o c u v Ho Hc Hu Hv). destruct (Nat.ltb_spec (p4 c1 KH KW o c u v) (c2 * c1 * KH * KW)); [|lia].
        rewrite delta_refl. cbn; ring.
      + intros o' Ho' No. apply bsum_0; intros c Hc; apply bsum_0; intros u Hu; apply bsum_0; intros v Hv.
        unfold conv_JW. rewrite p4_o, p4_c, p4_u, p4_v, chw_div, chw_divmod, chw_mod by auto.
        pose proof (p4_lt c2 c1 KH KW o' c u v Ho' Hc Hu Hv). destruct (Nat.ltb_spec (p4 c1 KH KW o' c u v) (c2 * c1 * KH * KW)); [|lia].
        rewrite delta_neq by auto. cbn; ring.
    - destruct Hnb as [-> | ->]; [reflexivity|]. destruct (Nat.eqb_spec c2 0); [lia|].
      rewrite (bsum_single c2 o); auto.
      + unfold conv_JW. rewrite chw_div by auto. destruct (Nat.ltb_spec (c2 * c1 * KH * KW + o) (c2 * c1 * KH * KW)); [lia|].
        replace (c2 * c1 * KH * KW + o - c2 * c1 * KH * KW) with o by lia. rewrite delta_refl. cbn; ring.
      + intros k Hk Nk. unfold conv_JW. rewrite chw_div by auto. destruct (Nat.ltb_spec (c2 * c1 * KH * KW + k) (c2 * c1 * KH * KW)); [lia|].
        replace (c2 * c1 * KH * KW + k - c2 * c1 * KH * KW) with k by lia. rewrite delta_neq by auto. cbn; ring.
  Qed.
End ConvRows.

Lemma dl_pad0 h1 w1 ph pw (X : R -> nat -> nat -> R) (dX : nat -> nat -> R) t0 y x :
  (forall y1 x1, y1 < h1 -> x1 < w1 -> derivable_pt_lim (fun t => X t y1 x1) t0 (dX y1 x1)) ->
  derivable_pt_lim (fun t => pad0 h1 w1 ph pw (X t) y x) t0 (pad0 h1 w1 ph pw dX y x).
Proof.
  intros H. unfold pad0.
  destruct (Nat.leb_spec ph y), (Nat.leb_spec pw x); cbn [andb];
    repeat match goal with |- context [?a <? ?b] => destruct (Nat.ltb_spec a b); cbn [andb] end;
    try (apply dl_const); apply H; lia.
Qed.

Lemma conv_D cfg W bias s s' : leaf_typed (Conv2d cfg W bias) s s' -> leaf_D (Conv2d cfg W bias) s s'.
Proof.
  intros (P1 & P2 & Ty) b c t0 dx w dw Hb [C1 C2] [Q1 Q2] _. cbn in Ty. unfold conv_ok in Ty.
  destruct s as [|c1 [|h1 [|w1 [|]]]], s' as [|c2 [|h2 [|w2 [|]]]]; try contradiction.
  destruct (shape W) as [|c2' [|c1' [|KH [|KW [|]]]]] eqn:SW; try contradiction.
  destruct Ty as (-> & -> & Bo & WW & Hst & Hdi & Hgr & Hmo & Hph & Hpw & Hh & Hw & Hc1 & Hc2 & Hh1 & Hw1 & Hh2 & Hw2).
  destruct (cpad cfg) as [ph pw] eqn:Hpa. cbn [fst snd] in *. rewrite <- Hpa in Hmo.
  pose proof (bias_numel bias c2 Bo) as Eb.
  assert (NW : numel (shape W) = c2 * c1 * KH * KW) by (rewrite SW; numels; ring).
  set (nb := match bias with Some _ => c2 | None => 0 end).
  assert (Np : leaf_n_params (Conv2d cfg W bias) = c2 * c1 * KH * KW + nb).
  { cbn [leaf_n_params]. now rewrite (npE W bias c1 c2 KH KW SW Bo). }
  rewrite Np in *.
  assert (L : forall t, numel (shape W) + match bias with Some t => numel (shape t) | None => 0 end <= length (w t)).
  { intros t. rewrite NW, Eb. apply Q1. }
  assert (Sx : forall t, shape (c t) = [b; c1; h1; w1]) by apply C1.
  set (X := fun t q ch y x => fl (numel [c1; h1; w1]) (c t) q (chw h1 w1 ch y x)).
  set (Y := fun t q o y x2 => nadd (bsum c1 (fun ch => bsum KH (fun u => bsum KW (fun v =>
       nmul (pad0 h1 w1 ph pw (X t q ch) (y + u) (x2 + v)) (nth (p4 c1 KH KW o ch u v) (w t) 0%R)))))
       match bias with Some _ => nth (c2 * c1 * KH * KW + o) (w t) 0%R | None => 0%R end).
  assert (EW : forall t o ch u v, o < c2 -> ch < c1 -> u < KH -> v < KW -> gt (setW W (w t)) [o; ch; u; v] = nth (p4 c1 KH KW o ch u v) (w t) 0%R).
  { intros t o ch u v Ho Hc Hu Hv. unfold get, setW. cbn [shape data]. rewrite NW, SW. cbn [ravel]. numels.
    replace (o * (c1 * (KH * KW)) + (ch * (KH * KW) + (u * KW + v))) with (p4 c1 KH KW o ch u v) by (unfold p4; ring).
    rewrite ?Nat.mul_1_r, ?Nat.add_0_r. replace (o * (c1 * (KH * KW)) + (ch * (KH * KW) + (u * KW + v))) with (p4 c1 KH KW o ch u v) by (unfold p4; ring).
    apply nth_firstn_lt. now apply p4_lt. }
  assert (F : forall t, conv_forward cfg (setW W (w t)) (setB W bias (w t)) (c t) = Ok (tab4 b c2 h2 w2 (Y t))).
  { intros t. rewrite (conv_fwd_ok cfg (setW W (w t)) (setB W bias (w t)) c1 c2 h1 w1 h2 w2 KH KW ph pw b (c t)); auto; [|now apply setB_ok].
    f_equal. apply tab4_ext. intros q o y x2 Hq Ho Hy Hx. cbv zeta. unfold Y.
    assert (E : bsum c1 (fun ch => bsum KH (fun u => bsum KW (fun v => nmul (pget PZeros (c t) h1 w1 ph pw q ch (y + u) (x2 + v)) (gt (setW W (w t)) [o; ch; u; v])))) =
      bsum c1 (fun ch => bsum KH (fun u => bsum KW (fun v => nmul (pad0 h1 w1 ph pw (X t q ch) (y + u) (x2 + v)) (nth (p4 c1 KH KW o ch u v) (w t) 0%R))))).
    { apply bsum_ext; intros ch Hc; apply bsum_ext; intros u Hu; apply bsum_ext; intros v Hv. rewrite EW by auto. f_equal.
      rewrite pget_pad0. apply pad0_ext. intros y1 x1 Hy1 Hx1. unfold X. now rewrite <- (fl_get4 (c t) b c1 h1 w1) by auto. }
    cbn [n0 Num_R]. rewrite E.
    destruct bias as [tb|]; cbn [setB].
    - f_equal. unfold get. cbn [shape data]. destruct Bo as [Sb _]. rewrite Sb. cbn [ravel]. numels.
      rewrite nth_firstn_lt by lia. rewrite nth_skipn_add, NW. f_equal. ring.
    - cbn. ring. }
  exists (fun t => tab4 b c2 h2 w2 (Y t)). split.
  { intros t. rewrite setl_conv by auto. cbn [leaf_forward]. apply F. }
  split. { intros t. split; [apply wf_tab|reflexivity]. }
  intros q i Hq Hi. destruct (chw_ex c2 h2 w2 i) as (o & y & x2 & Ho & Hy & Hx & ->); [numels; nia|].
  apply dl_ext with (f := fun t => Y t q o y x2); [intros t; now rewrite fl_tab4 by auto|].
  rewrite setl_conv by auto. cbn [leaf_JX leaf_JW]. unfold kh, kw, dim. cbn [setW shape]. rewrite SW, (Sx t0), Hpa. cbn [nth fst snd].
  replace (h1 + 2 * ph - KH + 1) with h2 by lia. replace (w1 + 2 * pw - KW + 1) with w2 by lia.
  assert (Hnb : nb = 0 \/ nb = c2) by (unfold nb; destruct bias; auto).
  pose proof (conv_JX_row (setW W (w t0)) c1 h1 w1 h2 w2 KH KW ph pw q o y x2 (fun j => dx q j) Hy Hx) as R1.
  pose proof (conv_JW_row (c t0) c1 c2 h1 w1 h2 w2 KH KW ph pw nb q o y x2 dw Ho Hy Hx Hnb) as R2.
  cbn [nmul nadd Num_R] in R1, R2. replace (numel [c1; h1; w1]) with (c1 * h1 * w1) by (numels; ring).
  rewrite R2, R1. clear R1 R2.
  eapply dl_eq.
  - unfold Y. refine (dl_plus _ _ _ _ _ _ _).
    + apply dl_bsum with (f := fun ch t => bsum KH (fun u => bsum KW (fun v =>
          (pad0 h1 w1 ph pw (X t q ch) (y + u) (x2 + v) * nth (p4 c1 KH KW o ch u v) (w t) 0)%R)))
        (d := fun ch => bsum KH (fun u => bsum KW (fun v =>
          (pad0 h1 w1 ph pw (fun y1 x1 => dx q (chw h1 w1 ch y1 x1)) (y + u)%nat (x2 + v)%nat * nth (p4 c1 KH KW o ch u v) (w t0) 0 +
           pad0 h1 w1 ph pw (X t0 q ch) (y + u)%nat (x2 + v)%nat * dw (p4 c1 KH KW o ch u v))%R))).
      intros ch Hc. refine (dl_bsum _ _ _ _ _). intros u Hu. refine (dl_bsum _ _ _ _ _). intros v Hv.
      refine (dl_mult (fun t => pad0 h1 w1 ph pw (X t q ch) (y + u) (x2 + v)) _ _ _ _ _ _).
      * apply dl_pad0. intros y1 x1 Hy1 Hx1. apply C2; auto. pose proof (chw_lt c1 h1 w1 ch y1 x1 Hc Hy1 Hx1). numels. nia.
      * apply Q2. pose proof (p4_lt c2 c1 KH KW o ch u v Ho Hc Hu Hv). lia.
    + instantiate (1 := if nb =? 0 then 0%R else dw (c2 * c1 * KH * KW + o)).
      unfold nb. destruct bias as [tb|].
      * destruct (Nat.eqb_spec c2 0); [lia|]. apply Q2. unfold nb. lia.
      * apply dl_const.
  - cbn beta. rewrite <- Rplus_assoc. f_equal.
    etransitivity.
    { apply bsum_ext. intros ch Hc. etransitivity; [apply bsum_ext; intros u Hu; apply bsumR_add|apply bsumR_add]. }
    rewrite bsumR_add. f_equal.
    + apply bsum_ext; intros ch Hc; apply bsum_ext; intros u Hu; apply bsum_ext; intros v Hv. f_equal.
      now rewrite <- EW by auto.
    + apply bsum_ext; intros ch Hc; apply bsum_ext; intros u Hu; apply bsum_ext; intros v Hv. f_equal.
      rewrite pget_pad0. apply pad0_ext. intros y1 x1 Hy1 Hx1. unfold X. now rewrite <- (fl_get4 (c t0) b c1 h1 w1) by auto.
Qed.

(** layers without parameters whose output entries each read one input entry *)
Lemma select_D (l : leaf R) s s' (src : nat -> nat) : leaf_n_params l = 0 -> (forall v, setl l v = l) ->
  (forall i, i < numel s' -> src i < numel s) ->
  (forall b (x : TR), 0 < b -> wf x -> shape x = b :: s -> exists y, leaf_forward l x = Ok y /\ wf y /\ shape y = b :: s' /\
     forall q i, q < b -> i < numel s' -> fl (numel s') y q i = fl (numel s) x q (src i)) ->
  (forall b (x : TR) q i j, shape x = b :: s -> i < numel s' -> j < numel s -> leaf_JX l x q i j = delta (src i) j) ->
  leaf_D l s s'.
Proof.
  intros Hn Hs Hr F HJ b c t0 dx w dw Hb [C1 C2] _ _. rewrite Hn.
  assert (G : forall t, { y | leaf_forward l (c t) = Ok y }).
  { intros t. destruct (leaf_forward l (c t)) as [y|e] eqn:E; [now exists y|]. exfalso. destruct (C1 t) as [Wc Sc].
    destruct (F b (c t) Hb Wc Sc) as (y & E' & _). congruence. }
  exists (fun t => proj1_sig (G t)). split; [intros t; rewrite Hs; exact (proj2_sig (G t))|].
  assert (P : forall t, wf (proj1_sig (G t)) /\ shape (proj1_sig (G t)) = b :: s' /\
     forall q i, q < b -> i < numel s' -> fl (numel s') (proj1_sig (G t)) q i = fl (numel s) (c t) q (src i)).
  { intros t. destruct (G t) as [y E]. cbn. destruct (C1 t) as [Wc Sc]. destruct (F b (c t) Hb Wc Sc) as (y' & E' & R). rewrite E in E'. injection E' as <-. auto. }
  split; [intros t; split; apply P|].
  intros q i Hq Hi. apply dl_ext with (f := fun t => fl (numel s) (c t) q (src i)); [intros t; symmetry; now apply P|].
  eapply dl_eq; [apply C2; auto|]. rewrite Hs.
  rewrite (bsum_ext _ _ (fun j => (delta (src i) j * dx q j)%R)).
  2:{ intros j Hj. rewrite (HJ b) by (auto; apply C1). reflexivity. }
  rewrite bsumR_delta by auto. cbn. ring.
Qed.
Lemma act_D a s s' : leaf_typed (Act a) s s' -> leaf_D (Act a) s s'.
Proof.
  intros (P1 & P2 & ->) b c t0 dx w dw Hb [C1 C2] _ Sm. cbn [setl leaf_set fst leaf_smooth] in Sm. unfold setl in *. cbn [leaf_set fst] in *.
  exists (fun t => emap (act_fun a) (c t)). split; [reflexivity|].
  assert (E : forall t q i, q < b -> i < numel s -> fl (numel s) (emap (act_fun a) (c t)) q i = act_fun a (fl (numel s) (c t) q i)).
  { intros t q i Hq Hi. unfold fl, emap. cbn [data]. destruct (C1 t) as [Wc Sc]. pose proof (flat_lt b (numel s) q i Hq Hi).
    rewrite (nth_indep _ _ (act_fun a 0%R)) by (rewrite map_length; unfold wf in Wc; rewrite Wc, Sc, numel_cons; lia).
    apply map_nth. }
  split.
  { intros t. destruct (C1 t) as [Wc Sc]. split; [|exact Sc]. unfold wf, emap. cbn. now rewrite map_length. }
  intros q i Hq Hi. apply dl_ext with (f := fun t => act_fun a (fl (numel s) (c t) q i)); [intros t; symmetry; now apply E|].
  destruct (C1 t0) as [Wc Sc].
  eapply dl_eq.
  - refine (dl_comp _ (act_fun a) t0 _ _ (C2 q i Hq Hi) _). apply dl_act. apply (Sm (q * numel s + i)).
    rewrite Sc, numel_cons. now apply flat_lt.
  - cbn [leaf_JX leaf_n_params]. rewrite (per_shape (c t0) b s Sc).
    rewrite (bsum_ext _ _ (fun j => (delta i j * (act_d a (fl (numel s) (c t0) q i) * dx q j))%R)) by (intros; cbn; ring).
    rewrite bsumR_delta by auto. cbn. ring.
Qed.

Lemma id_D (l : leaf R) s s' : is_id l -> leaf_typed l s s' -> leaf_D l s s'.
Proof.
  intros I (N & N' & Ty).
  assert (Nn : numel s' = numel s).
  { destruct l; try destruct I; [|now destruct Ty as [_ Ty]]. subst. rewrite numel_cons, numel_nil. lia. }
  apply (select_D l s s' (fun i => i)); try (destruct l; try destruct I; reflexivity).
  - intros i Hi. now rewrite <- Nn.
  - intros b x Hb Wx Sx. exists (mkT (b :: s') (data x)). split.
    + destruct l; try destruct I; cbn [leaf_forward].
      * subst s'. unfold flatten_forward. rewrite (size0_x x b s Sx). cbn [bind].
        rewrite flat_ok with (s := s) by (auto; lia). reflexivity.
      * destruct Ty as [M Nd]. unfold reshape_forward. rewrite (size0_x x b s Sx). cbn [bind].
        now apply reshape_z_ok with s.
    + split; [unfold wf; cbn [shape data]; rewrite Wx, Sx, !numel_cons; congruence|]. split; [reflexivity|].
      intros q i _ _. unfold fl. cbn [data]. now rewrite Nn.
Qed.
Lemma up_D sn sd s s' : leaf_typed (@Upsample R sn sd) s s' -> leaf_D (@Upsample R sn sd) s s'.
Proof.
  intros (N & N' & Hsd & Hk & Ty).
  destruct s as [|c [|h [|w [|]]]]; try contradiction. destruct s' as [|c' [|h2 [|w2 [|]]]]; try contradiction.
  destruct Ty as (-> & -> & ->). set (k := sn / sd) in *.
  assert (Pc : 0 < c /\ 0 < h /\ 0 < w /\ 0 < k) by (numels; nia). destruct Pc as (Pc & Ph & Pw & Pk).
  apply (select_D (@Upsample R sn sd) [c; h; w] [c; h * k; w * k] (up_src k h w)); try reflexivity.
  - intros i Hi. destruct (chw_ex c (h * k) (w * k) i) as (o & y & x & Ho & Hy & Hx & ->); [numels; nia|].
    rewrite (up_src_chw k h w) by auto. replace (numel [c; h; w]) with (c * h * w) by (numels; ring).
    apply chw_lt; auto; apply Nat.div_lt_upper_bound; lia.
  - intros b x Hb Wx Sx. eexists. split; [cbn [leaf_forward]; apply (up_fwd_ok sn sd k c h w b x); auto|].
    split; [apply wf_tab|]. split; [reflexivity|]. intros q i Hq Hi.
    destruct (chw_ex c (h * k) (w * k) i) as (o & y & x1 & Ho & Hy & Hx & ->); [numels; nia|].
    rewrite fl_tab4 by auto. cbn [n0 Num_R]. rewrite (up_src_chw k h w), (fl_get4 x b c h w) by auto. reflexivity.
  - intros b x q i j Sx Hi Hj. cbn [leaf_JX]. unfold dim. rewrite Sx. reflexivity.
Qed.

Lemma l2_D e s s' : leaf_typed (L2Norm e) s s' -> leaf_D (L2Norm e) s s'.
Proof.
  intros (P1 & P2 & ->) b c t0 dx w dw Hb [C1 C2] _ Sm. unfold setl in *. cbn [leaf_set fst leaf_smooth] in *.
  destruct Sm as [-> Nz]. set (n := numel s) in *.
  assert (G : forall t, { y | l2_forward 0%R (c t) = Ok y }).
  { intros t. destruct (l2_forward 0%R (c t)) as [y|e] eqn:E; [now exists y|]. exfalso. destruct (C1 t) as [Wc Sc].
    destruct (l2_fwd 0%R b s (c t) Hb Sc) as (y & E' & _). congruence. }
  exists (fun t => proj1_sig (G t)). split; [intros t; exact (proj2_sig (G t))|].
  assert (P : forall t, wf (proj1_sig (G t)) /\ shape (proj1_sig (G t)) = b :: s /\
     forall q i, q < b -> i < n -> fl n (proj1_sig (G t)) q i = (1 / (sqrt (bsum n (fun j => fl n (c t) q j * fl n (c t) q j)) + 0) * fl n (c t) q i)%R).
  { intros t. destruct (G t) as [y E]. cbn. destruct (C1 t) as [Wc Sc]. destruct (l2_fwd 0%R b s (c t) Hb Sc) as (y' & E' & R). rewrite E in E'. injection E' as <-. exact R. }
  split; [intros t; split; apply P|].
  intros q i Hq Hi. set (S := fun t => bsum n (fun j => fl n (c t) q j * fl n (c t) q j)%R).
  apply dl_ext with (f := fun t => (1 / sqrt (S t) * fl n (c t) q i)%R).
  { intros t. rewrite (proj2 (proj2 (P t))) by auto. now rewrite Rplus_0_r. }
  destruct (C1 t0) as [Wc Sc].
  assert (Sp : (0 < S t0)%R).
  { destruct (Nz q) as (j & Hj & Nj). { unfold dim. rewrite Sc. exact Hq. } rewrite Sc in Hj, Nj. cbn [tl] in Hj, Nj. fold n in Hj, Nj.
    apply (bsum_pos n _ j); auto; [intros; apply Rle_0_sqr|]. apply Rsqr_pos_lt. exact Nj. }
  set (N := sqrt (S t0)). assert (Np : (0 < N)%R) by (apply sqrt_lt_R0; exact Sp).
  set (dS := bsum n (fun j => 2 * (fl n (c t0) q j * dx q j))%R).
  assert (DS : derivable_pt_lim S t0 dS).
  { unfold dS. eapply dl_eq; [refine (dl_bsum n (fun j t => (fl n (c t) q j * fl n (c t) q j)%R) _ t0 _)|].
    - intros j Hj. refine (dl_mult _ _ _ _ _ _ _); apply C2; auto.
    - apply bsum_ext. intros j Hj. cbn beta. ring. }
  eapply dl_eq.
  - refine (dl_mult (fun t => 1 / sqrt (S t))%R _ t0 _ _ _ (C2 q i Hq Hi)).
    refine (dl_inv (fun t => sqrt (S t)) t0 _ _ _); [|fold N; lra].
    refine (dl_comp S sqrt t0 _ _ DS _). apply derivable_pt_lim_sqrt. exact Sp.
  - cbn beta. fold N. cbn [leaf_JX leaf_n_params]. rewrite (per_shape (c t0) b s Sc). fold n.
    unfold l2_JX, l2_norm. cbn [nmul nadd nsub ndiv nsqrt n0 n1 Num_R]. change (bsum n (fun j => fl n (c t0) q j * fl n (c t0) q j)%R) with (S t0). fold N.
    cbn [bsum]. rewrite !Rplus_0_r.
    rewrite (bsum_ext n _ (fun j => ((1 / N) * (delta i j * dx q j) - (1 / N * (1 / N) * (1 / N) * fl n (c t0) q i) * (fl n (c t0) q j * dx q j))%R)) by (intros; ring).
    rewrite bsumR_sub, !bsumR_mul_l, bsumR_delta by auto.
    unfold dS. rewrite bsumR_mul_l. cbn [n0 Num_R]. field. lra.
Qed.

Lemma custom_D c s s' : leaf_typed (Custom c) s s' -> leaf_D (Custom c) s s'.
Proof.
  intros (P1 & P2 & Cu) b cv t0 dx w dw Hb [C1 C2] _ Sm. unfold setl in *. cbn [leaf_set fst leaf_smooth] in *.
  destruct Sm as (s2 & J & EJ & D). destruct (C1 t0) as [Wc Sc].
  destruct (Cu b (cv t0) Hb Wc Sc) as (y0 & J' & Fy & Wy & Sy & WJ & SJ & HJ).
  destruct (HJ None (or_introl eq_refl)) as [HJ1 _]. rewrite EJ in HJ1. injection HJ1 as <-.
  set (d := mkT (b :: s) (data (@tab2 R b (numel s) dx))).
  assert (Wd : wf d). { unfold wf, d. cbn [shape data]. transitivity (numel [b; numel s]); [apply wf_tab|]. rewrite !numel_cons, numel_nil. ring. }
  assert (Nd : forall q i, q < b -> i < numel s -> nth (q * numel s + i) (data d) 0%R = dx q i).
  { intros q i Hq Hi. change (fl (numel s) (@tab2 R b (numel s) dx) q i = dx q i). now apply fl_tab2. }
  assert (Mv : moves cv t0 d).
  { split; [exact Wd|]. split; [exact C1|]. cbn [shape d]. intros k Hk. rewrite numel_cons in Hk.
    destruct (divmod_lt k b (numel s) Hk) as (A & B & ->). rewrite Nd by auto. now apply C2. }
  destruct (D cv t0 d eq_refl Mv) as (y & Fw & _ & Y1 & Y2). exists y. split; [exact Fw|].
  assert (Es : s2 = s').
  { specialize (Y1 t0). destruct Y1 as [_ Y1]. assert (y0 = y t0) by (specialize (Fw t0); congruence). subst y0.
    rewrite Sy in Y1. unfold jac_apply in Y1. cbn [shape] in Y1. congruence. }
  subst s2. unfold jac_apply in Y1, Y2. rewrite SJ in Y1, Y2. cbn [nth shape data] in Y1, Y2.
  split; [exact Y1|]. intros q i Hq Hi. eapply dl_eq; [apply (Y2 (q * numel s' + i)); rewrite numel_cons; now apply flat_lt|].
  unfold Jv. change (nth (q * numel s' + i) (data (@tab2 R b (numel s') ?f)) 0%R) with (fl (numel s') (@tab2 R b (numel s') f) q i).
  rewrite fl_tab2 by auto. cbn [leaf_n_params leaf_JX]. rewrite EJ. cbn [bsum n0 Num_R]. rewrite Rplus_0_r.
  apply bsum_ext. intros j Hj. cbn [nmul Num_R]. f_equal. change 0%R with (@n0 R _). rewrite get_mkT2. apply Nd; auto.
Qed.

(** a strict maximum is the one argmax returns *)
Lemma argmax_unique (f : nat * nat -> R) l c0 : In c0 l -> (forall c, In c l -> c <> c0 -> (f c < f c0)%R) -> argmax f l = Some c0.
Proof.
  intros I U. unfold argmax.
  assert (G : forall l o, (forall c, In c l -> c <> c0 -> (f c < f c0)%R) -> (match o with Some b => b <> c0 -> (f b < f c0)%R | None => True end) ->
     In c0 l \/ o = Some c0 ->
     fold_left (fun best c => match best with None => Some c | Some b => if nltb (f b) (f c) then Some c else Some b end) l o = Some c0).
  { clear l I U. induction l as [|a l IH]; intros o U Ho Hi; cbn [fold_left].
    - destruct Hi as [[]|]; auto.
    - assert (Dc : forall p q : nat * nat, {p = q} + {p <> q}) by (repeat decide equality).
      apply IH; [intros; apply U; cbn; auto| |].
      + destruct o as [p|]; [|intros; apply U; cbn; auto]. destruct nltb; [intros; apply U; cbn; auto|auto].
      + destruct (Dc a c0) as [->|Na].
        * right. destruct o as [p|]; auto. destruct (Dc p c0) as [->|Np]; [now destruct nltb|].
          rewrite nltb_true; auto.
        * destruct Hi as [[->|Hi]|Ho']; [congruence|auto|]. right. subst o. rewrite nltb_false; auto.
          apply Rlt_le, U; cbn; auto. }
  apply G; auto.
Qed.
Lemma uniform (P : nat * nat -> R -> Prop) l : (forall c, In c l -> exists d, (0 < d)%R /\ forall h, (Rabs h < d)%R -> P c h) ->
  exists d, (0 < d)%R /\ forall h, (Rabs h < d)%R -> forall c, In c l -> P c h.
Proof.
  induction l as [|a l IH]; intros H.
  - exists 1%R. split; [lra|]. intros h _ c [].
  - destruct IH as (d1 & P1 & H1); [intros; apply H; cbn; auto|]. destruct (H a) as (d2 & P2 & H2); [cbn; auto|].
    exists (Rmin d1 d2). split; [now apply Rmin_pos|]. intros h Hh c [<-|I].
    + apply H2. eapply Rlt_le_trans; [exact Hh|apply Rmin_r].
    + apply H1; auto. eapply Rlt_le_trans; [exact Hh|apply Rmin_l].
Qed.
Lemma pool_D cfg s s' b c t0 dx : pool_typed cfg s s' -> 0 < b -> curve b s c t0 dx -> pool_smooth cfg (c t0) ->
  exists y, (forall t, fwd (MaxPool cfg) (c t) = Ok (y t)) /\
    curve b s' y t0 (fun q i => bsum (numel s) (fun j => delta (pool_src cfg (c t0) q i) j * dx q j)%R).
Proof.
  intros (N & N' & Ty) Hb [C1 C2] Sm. destruct s as [|ch [|h [|w [|? ?]]]]; try contradiction.
  destruct s' as [|c' [|h2 [|w2 [|? ?]]]]; try contradiction. destruct Ty as (-> & L1 & L2 & O1 & O2 & X1 & X2).
  assert (Po : 0 < ch /\ 0 < h /\ 0 < w /\ 0 < h2 /\ 0 < w2) by (numels; nia). destruct Po as (Pc & Ph & Pw & Ph2 & Pw2).
  assert (G : forall t, { y | exists i, max_pool2d cfg (c t) = Ok (y, i) }).
  { intros t. destruct (max_pool2d cfg (c t)) as [[y i]|e] eqn:E; [exists y, i; reflexivity|]. exfalso. destruct (C1 t) as [Wc Sc].
    destruct (pool_ok_fwd cfg ch h w h2 w2 b (c t) Pc Ph Pw Ph2 Pw2 Hb Sc L1 L2 O1 O2) as (y & i & E' & _). congruence. }
  exists (fun t => proj1_sig (G t)). split.
  { intros t. destruct (G t) as [y [i E]]. cbn [proj1_sig]. unfold fwd. cbn. rewrite E. reflexivity. }
  assert (P : forall t, wf (proj1_sig (G t)) /\ shape (proj1_sig (G t)) = [b; ch; h2; w2] /\
    forall q o y0 x0, q < b -> o < ch -> y0 < h2 -> x0 < w2 -> exists cy cx, pool_cell cfg (c t) h w q o y0 x0 = Some (cy, cx) /\
      gt (proj1_sig (G t)) [q; o; y0; x0] = gt (c t) [q; o; cy; cx] /\ cy < h /\ cx < w).
  { intros t. destruct (G t) as [y [i E]]. cbn [proj1_sig]. destruct (C1 t) as [Wc Sc].
    destruct (pool_ok_fwd cfg ch h w h2 w2 b (c t) Pc Ph Pw Ph2 Pw2 Hb Sc L1 L2 O1 O2) as (y' & i' & E' & Wy & Sy & _ & _ & H). rewrite E in E'. injection E' as <- <-.
    split; auto. split; auto. intros q o y0 x0 Hq Ho Hy Hx. destruct (H q o y0 x0 Hq Ho Hy Hx) as (cy & cx & H1 & _ & H2 & H3 & H4 & _). eauto 8. }
  split; [intros t; split; apply P|].
  intros q i Hq Hi. destruct (chw_ex ch h2 w2 i) as (o & y0 & x0 & Ho & Hy & Hx & ->); [numels; nia|].
  destruct (C1 t0) as [Wc Sc].
  set (cs := cells (window h (fst (pk cfg)) (fst (ps cfg)) (fst (pp cfg)) (fst (pd cfg)) y0)
                   (window w (snd (pk cfg)) (snd (ps cfg)) (snd (pp cfg)) (snd (pd cfg)) x0)).
  specialize (Sm q o y0 x0). unfold dim in Sm. rewrite Sc in Sm. cbn [nth] in Sm. fold cs in Sm. cbv zeta in Sm.
  destruct (pool_cell_some cfg h w h2 w2 (c t0) O1 O2 q o y0 x0 Hy Hx) as (cy & cx & Ec & I1 & I2).
  destruct Sm as (y1 & x1 & I & U); auto.
  { intros E. assert (F : In (cy, cx) cs) by (apply in_cells; auto). rewrite E in F. destruct F. }
  assert (Iw : forall y2 x2, In (y2, x2) cs -> y2 < h /\ x2 < w).
  { intros y2 x2 H. apply in_cells in H as [A B]. cbn in A, B. split; eapply window_lt; eauto. }
  assert (Dc : forall y2 x2, y2 < h -> x2 < w -> derivable_pt_lim (fun t => gt (c t) [q; o; y2; x2]) t0 (dx q (chw h w o y2 x2))).
  { intros y2 x2 H1 H2. apply dl_ext with (f := fun t => fl (numel [ch; h; w]) (c t) q (chw h w o y2 x2)).
    - intros t. symmetry. apply (fl_get4 _ b). apply C1.
    - apply C2; auto. pose proof (chw_lt ch h w o y2 x2 Ho H1 H2). numels. nia. }
  destruct (Iw y1 x1 I) as [B1 B2].
  destruct (uniform (fun p t => p <> (y1, x1) -> (gt (c (t0 + t)%R) [q; o; fst p; snd p] < gt (c (t0 + t)%R) [q; o; y1; x1])%R) cs) as (d & Pd & Ud).
  { intros [y2 x2] H. destruct (Iw y2 x2 H) as [B3 B4]. assert (Dp : {(y2, x2) = (y1, x1)} + {(y2, x2) <> (y1, x1)}) by (repeat decide equality).
    destruct Dp as [->|Ne]. { exists 1%R. split; [lra|]. congruence. }
    destruct (dl_lt _ _ _ _ _ (Dc y2 x2 B3 B4) (Dc y1 x1 B1 B2) (U y2 x2 H Ne)) as (d & Pd & Hd). exists d. split; auto. }
  assert (Src : pool_src cfg (c t0) q (chw h2 w2 o y0 x0) = chw h w o y1 x1).
  { unfold pool_src, dim. rewrite Sc. cbn [nth]. rewrite L1, L2, chw_div, chw_divmod, chw_mod by auto.
    unfold pool_cell. fold cs. rewrite (argmax_unique _ cs (y1, x1)); auto.
    - unfold chw. ring.
    - intros [y2 x2] H Ne. cbn [fst snd]. now apply U. }
  assert (Sl : chw h w o y1 x1 < numel [ch; h; w]) by (pose proof (chw_lt ch h w o y1 x1 Ho B1 B2); numels; nia).
  rewrite Src, bsumR_delta by exact Sl.
  apply dl_local with (f := fun t => gt (c t) [q; o; y1; x1]) (d := d); auto.
  intros t Ht. rewrite <- (fl_get4 (proj1_sig (G (t0 + t)%R)) b ch h2 w2) by apply P.
  destruct (proj2 (proj2 (P (t0 + t)%R)) q o y0 x0 Hq Ho Hy Hx) as (cy' & cx' & E' & -> & _).
  unfold pool_cell in E'. fold cs in E'. rewrite (argmax_unique _ cs (y1, x1)) in E'; [|exact I|intros p Hp Ne; now apply (Ud t Ht p)].
  injection E' as <- <-. reflexivity.
Qed.

Lemma leaves_D (l : leaf R) s s' : leaf_typed l s s' -> leaf_D l s s'.
Proof.
  intros Ty. destruct l.
  - now apply linear_D.
  - now apply conv_D.
  - now apply act_D.
  - apply id_D; cbn; auto.
  - apply id_D; cbn; auto.
  - now apply l2_D.
  - now apply up_D.
  - now apply custom_D.
Qed.
