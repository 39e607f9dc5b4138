(** Conv2d with any padding mode: the products are those of zero padding, and when they are right. *)
From Coq Require Import String Ascii List Arith ZArith Lia Bool.
From Verif Require Import Scalar Sums Tensor TensorLemmas EinsumLemmas Conv Abstract Simple LinearLayer ConvLayer PoolLayer
  Module Spec Domain OpLemmas ReshapeLemmas Jac LeafSpec LeafUpsample ConvBase ConvRaise LeafConv ConvExact.
Import ListNotations.
Local Open Scope nat_scope.
Local Open Scope list_scope.

(** the same layer with zero padding *)
Definition zeros_mode (cfg : conv_cfg) : conv_cfg :=
  {| cstride := cstride cfg; cpad := cpad cfg; cdil := cdil cfg; cgroups := cgroups cfg; cmode := PZeros; cvmap := cvmap cfg |}.
(** position k of an axis of n entries padded by p is an entry *)
Definition inside (n p k : nat) : bool := (p <=? k) && (k <? n + p).
(** position k shows entry k1 *)
Definition shows (m : pmode) (n p k k1 : nat) : bool := match pad_src m n p k with Some k' => k' =? k1 | None => false end.

Section CM.
  Context {K} `{CR : CRing K}.
  Add Ring Kring : (cring : ring_theory n0 n1 nadd nmul nsub nopp (@eq K)).
  Notation gt := (get (@n0 K _)).
  Notation T := (tensor K).

  (** the sum of the kernel entries through which output pixel (o, y, z) reads input pixel (c, y1, z1) in the padding *)
  Definition padded_taps (cfg : conv_cfg) (W : T) (h1 w1 o y z c y1 z1 : nat) : K :=
    bsum (kh W) (fun u => bsum (kw W) (fun v =>
      let i := y + u * fst (cdil cfg) in let j := z + v * snd (cdil cfg) in
      if negb (inside h1 (fst (cpad cfg)) i && inside w1 (snd (cpad cfg)) j) &&
         (shows (cmode cfg) h1 (fst (cpad cfg)) i y1 && shows (cmode cfg) w1 (snd (cpad cfg)) j z1)
      then gt W [o; c; u; v] else n0)).
  (** the parameters in the order of get_weight *)
  Definition params_of (W : T) (bias : option T) : list K := data W ++ match bias with Some t => data t | None => [] end.

  Section S.
    Variables (cfg : conv_cfg) (W : T) (bias : option T).
    Notation l := (Leaf (Conv2d cfg W bias)).
    Notation l0 := (Leaf (Conv2d (zeros_mode cfg) W bias)).

    Lemma mode_shape m x y st pa di g : conv2d_mode m x W bias st pa di g = Ok y ->
      exists y0, conv2d_mode PZeros x W bias st pa di g = Ok y0 /\ shape y0 = shape y.
    Proof.
      unfold conv2d_mode.
      destruct (shape x) as [|b [|c1 [|h [|w [|]]]]]; try discriminate. destruct (shape W) as [|c2 [|cg [|kh [|kw [|]]]]]; try discriminate.
      unfold check. destruct (_ && _ && _ && _); [|discriminate]. destruct (match bias with None => true | Some t => _ end); [|discriminate].
      destruct (_ && _); [|discriminate]. change (pad_ok PZeros h (fst pa) && pad_ok PZeros w (snd pa)) with true. cbv iota.
      destruct (out_len h _ _ _ _); [|discriminate]. destruct (out_len w _ _ _ _); [|discriminate].
      intros [= <-]. eexists. split; reflexivity.
    Qed.
    Lemma fwd_shape x y : fwd l x = Ok y -> exists y0, fwd l0 x = Ok y0 /\ shape y0 = shape y.
    Proof.
      unfold fwd. cbn [forward snd leaf_forward]. unfold conv_forward. cbn [cmode zeros_mode cstride cpad cdil cgroups].
      destruct (shape x) as [|b [|c1 [|h [|w l']]]]; try apply mode_shape.
      destruct (conv2d_mode (cmode cfg) _ _ _ _ _ _ _) as [z|] eqn:E; [|discriminate]. intros [= <-].
      destruct (mode_shape _ _ _ _ _ _ _ E) as [z0 [E0 S0]]. rewrite E0. exists (squeeze0 z0). split; [reflexivity|].
      cbn [squeeze0 shape]. now rewrite S0.
    Qed.
    (** with the value given, the layers run the same code *)
    Lemma given_val (h : st K) x v w :
      jacobian l h x (Some v) w = jacobian l0 h x (Some v) w /\
      (forall u, vjp l h x (Some v) u w = vjp l0 h x (Some v) u w) /\
      (forall M, mjp l h x (Some v) M w = mjp l0 h x (Some v) M w) /\
      (forall M fd td db, jTmjp l h x (Some v) M w fd td db = jTmjp l0 h x (Some v) M w fd td db) /\
      (forall u, jvp l h x (Some v) u w = jvp l0 h x (Some v) u w) /\
      (forall M, jmp l h x (Some v) M w = jmp l0 h x (Some v) M w) /\
      (forall M fd td db, jmjTp l h x (Some v) M w fd td db = jmjTp l0 h x (Some v) M w fd td db).
    Proof. repeat split; intros; reflexivity. Qed.
    Lemma shape_only (h : st K) x v v' w : shape v = shape v' ->
      jacobian l0 h x (Some v) w = jacobian l0 h x (Some v') w /\
      (forall u, vjp l0 h x (Some v) u w = vjp l0 h x (Some v') u w) /\
      (forall M, mjp l0 h x (Some v) M w = mjp l0 h x (Some v') M w) /\
      (forall M fd td db, jTmjp l0 h x (Some v) M w fd td db = jTmjp l0 h x (Some v') M w fd td db) /\
      (forall u, jvp l0 h x (Some v) u w = jvp l0 h x (Some v') u w) /\
      (forall M, jmp l0 h x (Some v) M w = jmp l0 h x (Some v') M w) /\
      (forall M fd td db, jmjTp l0 h x (Some v) M w fd td db = jmjTp l0 h x (Some v') M w fd td db).
    Proof. destruct v as [s d], v' as [s' d']. cbn [shape]. intros ->. repeat split; intros; reflexivity. Qed.
  End S.
  Section N.
    Variables (cfg : conv_cfg) (W : T) (bias : option T).
    Notation l := (Leaf (Conv2d cfg W bias)).
    Lemma none_val (h : st K) x y w : fwd l x = Ok y ->
      jacobian l h x None w = jacobian l h x (Some y) w /\
      (forall u, vjp l h x None u w = vjp l h x (Some y) u w) /\
      (forall M, mjp l h x None M w = mjp l h x (Some y) M w) /\
      (forall M fd td db, jTmjp l h x None M w fd td db = jTmjp l h x (Some y) M w fd td db) /\
      (forall u, jvp l h x None u w = jvp l h x (Some y) u w) /\
      (forall M, jmp l h x None M w = jmp l h x (Some y) M w) /\
      (forall M fd td db, jmjTp l h x None M w fd td db = jmjTp l h x (Some y) M w fd td db).
    Proof.
      unfold fwd. cbn [forward snd leaf_forward]. intros F.
      assert (E : conv_val cfg W bias x None = conv_val cfg W bias x (Some y)) by exact F.
      repeat split; intros; cbn [jacobian vjp mjp jTmjp jvp jmp jmjTp leaf_jacobian leaf_vjp leaf_mjp leaf_jTmjp leaf_jvp leaf_jmp leaf_jmjTp];
      unfold conv_jacobian, conv_vjp, conv_mjp, conv_jTmjp, conv_jvp, conv_jmp, conv_jmjTp; try reflexivity; try (rewrite E; reflexivity).
      - destruct M; [reflexivity|]. unfold conv_jacobian. rewrite E. reflexivity.
    Qed.
  End N.

  Definition same_products (l l0 : module K) (x : T) (val : option T) : Prop := forall (h : st K) w,
    jacobian l h x val w = jacobian l0 h x val w /\
    (forall u, vjp l h x val u w = vjp l0 h x val u w) /\
    (forall M, mjp l h x val M w = mjp l0 h x val M w) /\
    (forall M fd td db, jTmjp l h x val M w fd td db = jTmjp l0 h x val M w fd td db) /\
    (forall u, jvp l h x val u w = jvp l0 h x val u w) /\
    (forall M, jmp l h x val M w = jmp l0 h x val M w) /\
    (forall M fd td db, jmjTp l h x val M w fd td db = jmjTp l0 h x val M w fd td db).
  Lemma modes_like_zeros cfg W bias x y : fwd (Leaf (Conv2d cfg W bias)) x = Ok y ->
    exists y0, fwd (Leaf (Conv2d (zeros_mode cfg) W bias)) x = Ok y0 /\ shape y0 = shape y /\
    forall val, same_products (Leaf (Conv2d cfg W bias)) (Leaf (Conv2d (zeros_mode cfg) W bias)) x val.
  Proof.
    intros F. destruct (fwd_shape cfg W bias x y F) as (y0 & F0 & S0). exists y0. split; auto. split; auto. intros [v|] h w; [apply given_val|].
    destruct (none_val cfg W bias h x y w F) as (A1 & A2 & A3 & A4 & A5 & A6 & A7).
    destruct (none_val (zeros_mode cfg) W bias h x y0 w F0) as (B1 & B2 & B3 & B4 & B5 & B6 & B7).
    destruct (given_val cfg W bias h x y w) as (C1 & C2 & C3 & C4 & C5 & C6 & C7).
    destruct (shape_only cfg W bias h x y y0 w (eq_sym S0)) as (D1 & D2 & D3 & D4 & D5 & D6 & D7).
    split; [now rewrite A1, B1, C1|]. split; [intros; now rewrite A2, B2, C2|]. split; [intros; now rewrite A3, B3, C3|].
    split; [intros; now rewrite A4, B4, C4|]. split; [intros; now rewrite A5, B5, C5|]. split; [intros; now rewrite A6, B6, C6|].
    intros; now rewrite A7, B7, C7.
  Qed.

  (** entries shown by the padding are entries of the image *)
  Lemma pad_src_lt m n p k k' : pad_ok m n p = true -> 0 < n -> k < n + 2 * p -> pad_src m n p k = Some k' -> k' < n.
  Proof.
    intros O Hn Hk. unfold pad_src, pad_ok in *. destruct (Nat.leb_spec p k), (Nat.ltb_spec k (n + p)); cbn [andb]; try (intros [= <-]; lia).
    - destruct m; try discriminate; intros [= <-]; [apply Nat.mod_upper_bound; lia| |]; destruct (Nat.ltb_spec k p); try lia.
    - destruct m; try discriminate; intros [= <-]; [apply Nat.mod_upper_bound; lia| |]; destruct (Nat.ltb_spec k p); try lia.
      apply orb_prop in O. destruct O as [O|O]; [apply Nat.ltb_lt in O|apply Nat.eqb_eq in O]; lia.
    - destruct m; try discriminate; intros [= <-]; [apply Nat.mod_upper_bound; lia| |]; destruct (Nat.ltb_spec k p); try lia.
  Qed.
  Lemma shows_sum m n p k (f : nat -> K) : pad_ok m n p = true -> 0 < n -> k < n + 2 * p ->
    bsum n (fun k1 => if shows m n p k k1 then f k1 else n0) = match pad_src m n p k with Some k' => f k' | None => n0 end.
  Proof.
    intros O Hn Hk. unfold shows. destruct (pad_src m n p k) as [k'|] eqn:E; [|now apply bsum_0].
    rewrite (bsum_single n k'); [now rewrite Nat.eqb_refl|now apply (pad_src_lt m n p k)|]. intros i _ Ni. destruct (Nat.eqb_spec k' i); [congruence|reflexivity].
  Qed.
  Lemma pget_sum m (x : T) h w ph pw q c i j : pad_ok m h ph = true -> pad_ok m w pw = true -> 0 < h -> 0 < w -> i < h + 2 * ph -> j < w + 2 * pw ->
    pget m x h w ph pw q c i j = bsum h (fun y1 => bsum w (fun z1 => if shows m h ph i y1 && shows m w pw j z1 then gt x [q; c; y1; z1] else n0)).
  Proof.
    intros O1 O2 Hh Hw Hi Hj. unfold pget. transitivity (bsum h (fun y1 => if shows m h ph i y1 then bsum w (fun z1 => if shows m w pw j z1 then gt x [q; c; y1; z1] else n0) else n0)).
    - rewrite (shows_sum m h ph i (fun y1 => bsum w (fun z1 => if shows m w pw j z1 then gt x [q; c; y1; z1] else n0))) by auto.
      destruct (pad_src m h ph i) as [y1|]; [|reflexivity]. now rewrite (shows_sum m w pw j (fun z1 => gt x [q; c; y1; z1])) by auto.
    - apply bsum_ext. intros y1 Hy1. destruct (shows m h ph i y1); cbn [andb]; [reflexivity|]. symmetry. now apply bsum_0.
  Qed.
  (** a position inside shows its own entry, in every mode *)
  Lemma shows_inside m n p k k1 : inside n p k = true -> shows m n p k k1 = (k =? k1 + p).
  Proof.
    unfold inside, shows, pad_src. intros E. rewrite E. apply andb_prop in E. destruct E as [E1 E2]. apply Nat.leb_le in E1. apply Nat.ltb_lt in E2.
    destruct (Nat.eqb_spec (k - p) k1), (Nat.eqb_spec k (k1 + p)); auto; lia.
  Qed.
  Lemma outside_neq n p k k1 : inside n p k = false -> k1 < n -> (k =? k1 + p) = false.
  Proof.
    unfold inside. intros E H. apply Nat.eqb_neq. apply andb_false_iff in E. destruct E as [E|E]; [apply Nat.leb_gt in E|apply Nat.ltb_ge in E]; lia.
  Qed.

  Section Exact.
    Variables (cfg : conv_cfg) (c1 h1 w1 c2 h2 w2 b KH KW ph pw : nat).
    Hypothesis (Hst : cstride cfg = (1, 1)) (Hgr : cgroups cfg = 1) (Hpa : cpad cfg = (ph, pw)).
    Hypothesis (Dh : dil_ok (fst (cdil cfg)) KH h1) (Dw : dil_ok (snd (cdil cfg)) KW w1).
    Hypothesis (Hph : ph < KH) (Hpw : pw < KW) (Hh : h2 + KH = h1 + 2 * ph + 1) (Hw : w2 + KW = w1 + 2 * pw + 1).
    Hypothesis (Hc1 : 0 < c1) (Hc2 : 0 < c2) (Hh1 : 0 < h1) (Hw1 : 0 < w1) (Hh2 : 0 < h2) (Hw2 : 0 < w2).
    Hypothesis (Po1 : pad_ok (cmode cfg) h1 ph = true) (Po2 : pad_ok (cmode cfg) w1 pw = true).
    Notation m := (cmode cfg).

    Definition out (W : T) (bias : option T) (x : T) (q o y z : nat) : K :=
      nadd (bsum c1 (fun c => bsum KH (fun u => bsum KW (fun v => nmul (pget m x h1 w1 ph pw q c (y + u) (z + v)) (gt W [o; c; u; v])))))
        match bias with Some t => gt t [o] | None => n0 end.
    Lemma mode_fwd (W : T) bias x : shape W = [c2; c1; KH; KW] -> bias_ok bias c2 -> shape x = [b; c1; h1; w1] ->
      fwd (Leaf (Conv2d cfg W bias)) x = Ok (tab4 b c2 h2 w2 (out W bias x)).
    Proof.
      intros SW Bo Sx. unfold fwd. cbn [forward snd leaf_forward].
      destruct (cdil cfg) as [dh dw] eqn:Hdl. cbn [fst snd] in Dh, Dw.
      unfold conv_forward, conv2d_mode. rewrite Sx, SW, Hst, Hdl, Hgr, Hpa. cbn [fst snd].
      assert (O : forall n k p d, 0 < k -> k <= n + 2 * p -> 0 < d -> d = 1 \/ k = 1 -> out_len n k 1 p d = Some (n + 2 * p - k + 1)).
      { intros n k p d Hk Hn Hd Hdk. unfold out_len. replace (d * (k - 1) + 1) with k by (destruct Hdk; subst; nia).
        rewrite !(proj2 (Nat.ltb_lt _ _)), (proj2 (Nat.leb_le _ _)) by lia. cbn [andb]. now rewrite Nat.div_1_r. }
      rewrite !O by (destruct Dh, Dw; lia).
      replace (h1 + 2 * ph - KH + 1) with h2 by lia. replace (w1 + 2 * pw - KW + 1) with w2 by lia.
      assert (E : ((0 <? 1) && (c1 =? 1 * c1) && (c2 mod 1 =? 0) && (0 <? c2)) = true).
      { repeat (apply andb_true_intro; split); try (apply Nat.ltb_lt; lia). apply Nat.eqb_eq; lia. apply Nat.eqb_eq, Nat.mod_1_r. }
      rewrite E. clear E. cbn [check].
      assert (E : match bias with None => true | Some t => shape_eqb (shape t) [c2] end = true).
      { destruct bias as [t|]; auto. destruct Bo as [S0 _]. rewrite S0. apply shape_eqb_refl. }
      rewrite E, Po1, Po2. cbn [andb check]. f_equal. apply tab4_ext. intros n o y0 x0 Hn Ho Hy Hx0.
      rewrite Nat.div_1_r. rewrite (Nat.div_small o c2) by auto. cbn zeta. unfold out.
      assert (Q : bsum c1 (fun c => bsum KH (fun u => bsum KW (fun v => nmul
        (pget m x h1 w1 ph pw n (0 * c1 + c) (y0 * 1 + u * dh) (x0 * 1 + v * dw)) (gt W [o; c; u; v])))) =
        bsum c1 (fun c => bsum KH (fun u => bsum KW (fun v =>
        nmul (pget m x h1 w1 ph pw n c (y0 + u) (x0 + v)) (gt W [o; c; u; v]))))).
      { apply bsum_ext; intros c Hc; apply bsum_ext; intros u Hu; apply bsum_ext; intros v Hv.
        rewrite (dil_plain _ _ _ u Dh Hu), (dil_plain _ _ _ v Dw Hv), !Nat.mul_1_r. reflexivity. }
      rewrite Q. destruct bias; [reflexivity|]. ring.
    Qed.
    Notation n := (c1 * h1 * w1).
    Notation mm := (c2 * h2 * w2).
    Lemma fl4 (x : T) B C H0 W0 q c y z : shape x = [B; C; H0; W0] -> gt x [q; c; y; z] = fl (C * H0 * W0) x q (chw H0 W0 c y z).
    Proof. intros S0. unfold get, fl. rewrite S0. cbn [ravel]. unfold chw. numels. f_equal. ring. Qed.

    (** *** with respect to the input *)
    Definition taps (W : T) (o y z c y1 z1 : nat) : K :=
      bsum KH (fun u => bsum KW (fun v => if shows m h1 ph (y + u) y1 && shows m w1 pw (z + v) z1 then gt W [o; c; u; v] else n0)).
    Lemma out_taps (W : T) bias x q o y z : shape W = [c2; c1; KH; KW] -> shape x = [b; c1; h1; w1] -> q < b -> y < h2 -> z < w2 ->
      out W bias x q o y z = nadd (bsum c1 (fun c => bsum h1 (fun y1 => bsum w1 (fun z1 => nmul (taps W o y z c y1 z1) (gt x [q; c; y1; z1])))))
        match bias with Some t => gt t [o] | None => n0 end.
    Proof.
      intros SW Sx Hq Hy Hz. unfold out. f_equal. apply bsum_ext. intros c Hc.
      transitivity (bsum KH (fun u => bsum KW (fun v => bsum h1 (fun y1 => bsum w1 (fun z1 =>
        nmul (if shows m h1 ph (y + u) y1 && shows m w1 pw (z + v) z1 then gt W [o; c; u; v] else n0) (gt x [q; c; y1; z1])))))).
      - apply bsum_ext; intros u Hu; apply bsum_ext; intros v Hv. rewrite pget_sum by (auto; lia). rewrite <- bsum_mul_r.
        apply bsum_ext; intros y1 Hy1. rewrite <- bsum_mul_r. apply bsum_ext; intros z1 Hz1. destruct (_ && _); ring.
      - unfold taps.
        transitivity (bsum h1 (fun y1 => bsum w1 (fun z1 => bsum KH (fun u => bsum KW (fun v =>
          nmul (if shows m h1 ph (y + u) y1 && shows m w1 pw (z + v) z1 then gt W [o; c; u; v] else n0) (gt x [q; c; y1; z1])))))).
        + transitivity (bsum KH (fun u => bsum h1 (fun y1 => bsum w1 (fun z1 => bsum KW (fun v =>
            nmul (if shows m h1 ph (y + u) y1 && shows m w1 pw (z + v) z1 then gt W [o; c; u; v] else n0) (gt x [q; c; y1; z1])))))).
          * apply bsum_ext; intros u Hu. rewrite bsum_swap. apply bsum_ext; intros y1 Hy1. now rewrite bsum_swap.
          * rewrite bsum_swap. apply bsum_ext; intros y1 Hy1. now rewrite bsum_swap.
        + apply bsum_ext; intros y1 Hy1; apply bsum_ext; intros z1 Hz1. rewrite <- bsum_mul_r. apply bsum_ext; intros u Hu. now rewrite <- bsum_mul_r.
    Qed.
    Lemma taps_split (W : T) o y z c y1 z1 : shape W = [c2; c1; KH; KW] -> y1 < h1 -> z1 < w1 ->
      taps W o y z c y1 z1 = nadd (conv_dx (zeros_mode cfg) W o y z c y1 z1) (padded_taps cfg W h1 w1 o y z c y1 z1).
    Proof.
      intros SW Hy1 Hz1. unfold taps, conv_dx, padded_taps, kh, kw, dim. rewrite SW, Hpa. cbn [nth fst snd zeros_mode cpad cdil].
      rewrite Hpa. cbn [fst snd]. rewrite <- bsum_add. apply bsum_ext; intros u Hu. rewrite <- bsum_add. apply bsum_ext; intros v Hv.
      rewrite (dil_plain _ _ _ u Dh Hu), (dil_plain _ _ _ v Dw Hv). cbv zeta.
      destruct (inside h1 ph (y + u)) eqn:E1.
      - rewrite (shows_inside m h1 ph (y + u) y1 E1). destruct (inside w1 pw (z + v)) eqn:E2; cbn [andb negb].
        + rewrite (shows_inside m w1 pw (z + v) z1 E2). ring.
        + rewrite (outside_neq w1 pw (z + v) z1 E2 Hz1), andb_false_r. ring.
      - rewrite (outside_neq h1 ph (y + u) y1 E1 Hy1). cbn [andb negb]. ring.
    Qed.

    (** J gives every increment of the layer, which is affine in its input *)
    Lemma fl_tab4g B C H0 W0 (f : nat -> nat -> nat -> nat -> K) q ch y z : q < B -> ch < C -> y < H0 -> z < W0 ->
      nth (q * (C * H0 * W0) + chw H0 W0 ch y z) (data (tab4 B C H0 W0 f)) n0 = f q ch y z.
    Proof.
      intros Hq Hc Hy Hz. transitivity (gt (tab4 B C H0 W0 f) [q; ch; y; z]); [|now apply get_tab4].
      rewrite (fl4 _ B C H0 W0) by reflexivity. reflexivity.
    Qed.
    Definition hot (q c y1 z1 : nat) (x : T) : T := tab4 b c1 h1 w1 (fun q' c' y' z' =>
      nadd (gt x [q'; c'; y'; z']) (if (q' =? q) && (c' =? c) && (y' =? y1) && (z' =? z1) then n1 else n0)).
    Lemma input_row J (W : T) x z q o y0 z0 : shape W = [c2; c1; KH; KW] -> is_conv_dx (zeros_mode cfg) W b c1 h1 w1 c2 h2 w2 J ->
      shape x = [b; c1; h1; w1] -> shape z = [b; c1; h1; w1] -> q < b -> o < c2 -> y0 < h2 -> z0 < w2 ->
      bsum n (fun j => nmul (entry J q (chw h2 w2 o y0 z0) j) (nsub (nth (q * n + j) (data z) n0) (nth (q * n + j) (data x) n0))) =
      bsum c1 (fun c => bsum h1 (fun y1 => bsum w1 (fun z1 => nmul (conv_dx (zeros_mode cfg) W o y0 z0 c y1 z1) (nsub (gt z [q; c; y1; z1]) (gt x [q; c; y1; z1]))))).
    Proof.
      intros SW HJ Sx Sz Hq Ho Hy Hz. rewrite bsum_chw. apply bsum_ext; intros c Hc; apply bsum_ext; intros y1 Hy1; apply bsum_ext; intros z1 Hz1.
      rewrite (fl4 z b c1 h1 w1), (fl4 x b c1 h1 w1) by auto. unfold fl.
      pose proof (HJ q o y0 z0 c y1 z1 Hq Ho Hy Hz Hc Hy1 Hz1) as E. fold (chw h2 w2 o y0 z0) in E. fold (chw h1 w1 c y1 z1) in E. now rewrite E.
    Qed.
    Lemma input_gap J (W : T) bias x z q o y0 z0 : shape W = [c2; c1; KH; KW] -> is_conv_dx (zeros_mode cfg) W b c1 h1 w1 c2 h2 w2 J ->
      shape x = [b; c1; h1; w1] -> shape z = [b; c1; h1; w1] -> q < b -> o < c2 -> y0 < h2 -> z0 < w2 ->
      out W bias z q o y0 z0 = nadd (nadd (out W bias x q o y0 z0)
        (bsum n (fun j => nmul (entry J q (chw h2 w2 o y0 z0) j) (nsub (nth (q * n + j) (data z) n0) (nth (q * n + j) (data x) n0)))))
        (bsum c1 (fun c => bsum h1 (fun y1 => bsum w1 (fun z1 => nmul (padded_taps cfg W h1 w1 o y0 z0 c y1 z1) (nsub (gt z [q; c; y1; z1]) (gt x [q; c; y1; z1])))))).
    Proof.
      intros SW HJ Sx Sz Hq Ho Hy Hz. rewrite (input_row J W x z q o y0 z0) by auto. rewrite !out_taps by auto.
      set (B0 := match bias with Some t => gt t [o] | None => n0 end). clearbody B0.
      assert (E : forall A B C D : K, B = nadd (nadd A C) D -> nadd B B0 = nadd (nadd (nadd A B0) C) D) by (intros A B C D ->; ring).
      apply E. rewrite <- !bsum_add. apply bsum_ext; intros c Hc. rewrite <- !bsum_add. apply bsum_ext; intros y1 Hy1. rewrite <- !bsum_add.
      apply bsum_ext; intros z1 Hz1. rewrite (taps_split W o y0 z0 c y1 z1) by auto. ring.
    Qed.
    Lemma input_exact J (W : T) bias x : 0 < b -> shape W = [c2; c1; KH; KW] -> bias_ok bias c2 -> is_conv_dx (zeros_mode cfg) W b c1 h1 w1 c2 h2 w2 J ->
      shape x = [b; c1; h1; w1] ->
      (forall z, wf z -> shape z = shape x -> exists y yz, fwd (Leaf (Conv2d cfg W bias)) x = Ok y /\ fwd (Leaf (Conv2d cfg W bias)) z = Ok yz /\
        forall q i, q < b -> i < mm -> nth (q * mm + i) (data yz) n0 = nadd (nth (q * mm + i) (data y) n0)
          (bsum n (fun j => nmul (entry J q i j) (nsub (nth (q * n + j) (data z) n0) (nth (q * n + j) (data x) n0))))) <->
      (forall o y z c y1 z1, o < c2 -> y < h2 -> z < w2 -> c < c1 -> y1 < h1 -> z1 < w1 -> padded_taps cfg W h1 w1 o y z c y1 z1 = n0).
    Proof.
      intros Hb SW Bo HJ Sx. split.
      - intros E o y z c y1 z1 Ho Hy Hz Hc Hy1 Hz1.
        destruct (E (hot 0 c y1 z1 x) (wf_tab _ _) (eq_trans eq_refl (eq_sym Sx))) as (ya & yz & F1 & F2 & G).
        rewrite (mode_fwd W bias x SW Bo Sx) in F1. injection F1 as <-. rewrite (mode_fwd W bias (hot 0 c y1 z1 x) SW Bo eq_refl) in F2. injection F2 as <-.
        specialize (G 0 (chw h2 w2 o y z) Hb (chw_lt c2 h2 w2 o y z Ho Hy Hz)). rewrite !fl_tab4g in G by auto.
        rewrite (input_gap J W bias x (hot 0 c y1 z1 x)) in G by auto.
        assert (Z : forall A B : K, nadd A B = A -> B = n0) by (intros A B EAB; transitivity (nsub (nadd A B) A); [ring|rewrite EAB; ring]).
        apply Z in G. rewrite (bsum_single c1 c) in G; auto.
        + rewrite (bsum_single h1 y1) in G; auto.
          * rewrite (bsum_single w1 z1) in G; auto.
            -- rewrite <- G. unfold hot. rewrite get_tab4 by auto. rewrite !Nat.eqb_refl. cbn [andb]. ring.
            -- intros z' Hz' Nz. unfold hot. rewrite get_tab4 by auto. rewrite (proj2 (Nat.eqb_neq z' z1) Nz), !andb_false_r. ring.
          * intros y' Hy' Ny. apply bsum_0. intros z' Hz'. unfold hot. rewrite get_tab4 by auto. rewrite (proj2 (Nat.eqb_neq y' y1) Ny), !andb_false_r. cbn [andb]. ring.
        + intros c' Hc' Nc. apply bsum_0. intros y' Hy'. apply bsum_0. intros z' Hz'. unfold hot. rewrite get_tab4 by auto. rewrite (proj2 (Nat.eqb_neq c' c) Nc), !andb_false_r. cbn [andb]. ring.
      - intros P z Wz Sz. rewrite Sx in Sz. do 2 eexists. split; [apply (mode_fwd W bias x SW Bo Sx)|]. split; [apply (mode_fwd W bias z SW Bo Sz)|].
        intros q i Hq Hi. destruct (chw_ex c2 h2 w2 i Hi) as (o & y0 & z0 & Ho & Hy & Hz & ->). rewrite !fl_tab4g by auto.
        rewrite (input_gap J W bias x z) by auto.
        rewrite (bsum_0 c1); [ring|]. intros c Hc. apply bsum_0. intros y1 Hy1. apply bsum_0. intros z1 Hz1. rewrite P by auto. ring.
    Qed.

    (** *** with respect to the parameters *)
    Notation NW := (c2 * c1 * KH * KW).
    Notation nb bias := (match bias with Some _ => c2 | None => 0 end).
    Lemma bsum_p4g (g : nat -> K) : bsum NW g = bsum c2 (fun o => bsum c1 (fun c => bsum KH (fun u => bsum KW (fun v => g (p4 c1 KH KW o c u v))))).
    Proof. rewrite !bsum_prod. reflexivity. Qed.
    Lemma par_W (W : T) bias o c u v : wf W -> shape W = [c2; c1; KH; KW] -> o < c2 -> c < c1 -> u < KH -> v < KW ->
      nth (p4 c1 KH KW o c u v) (params_of W bias) n0 = gt W [o; c; u; v].
    Proof.
      intros WW SW Ho Hc Hu Hv. pose proof (p4_lt c2 c1 KH KW o c u v Ho Hc Hu Hv). unfold params_of. rewrite app_nth1.
      - unfold get. rewrite SW. cbn [ravel]. f_equal. unfold p4. numels. ring.
      - rewrite WW, SW. numels. lia.
    Qed.
    Lemma par_b (W t : T) o : wf W -> shape W = [c2; c1; KH; KW] -> shape t = [c2] -> nth (NW + o) (params_of W (Some t)) n0 = gt t [o].
    Proof.
      intros WW SW St. unfold params_of. assert (L : length (data W) = NW) by (rewrite WW, SW; numels; ring).
      rewrite app_nth2 by lia. rewrite L. replace (NW + o - NW) with o by lia. unfold get. rewrite St. cbn [ravel]. f_equal. numels. ring.
    Qed.
    (** what the padding shows to kernel entry (u, v) at output pixel (y, z) *)
    Definition ghost (x : T) (q c i j : nat) : K := if inside h1 ph i && inside w1 pw j then n0 else pget m x h1 w1 ph pw q c i j.
    Lemma pget_ghost (x : T) q c y z u v : u < KH -> v < KW -> pget m x h1 w1 ph pw q c (y + u) (z + v) =
      nadd (conv_dw (zeros_mode cfg) x h1 w1 q c y z u v) (ghost x q c (y + u) (z + v)).
    Proof.
      intros Hu Hv. unfold conv_dw, ghost, inside. cbn [zeros_mode cpad cdil]. rewrite Hpa. cbn [fst snd]. cbv zeta. rewrite (dil_plain _ _ _ u Dh Hu), (dil_plain _ _ _ v Dw Hv).
      unfold pget, pad_src.
      destruct ((ph <=? y + u) && (y + u <? h1 + ph)), ((pw <=? z + v) && (z + v <? w1 + pw)); cbn [andb]; ring.
    Qed.
    Definition same_bias (bias bias' : option T) : Prop := match bias, bias' with None, None => True | Some _, Some _ => True | _, _ => False end.
    Lemma weight_gap J (W W' : T) bias bias' x q o y0 z0 : wf W -> shape W = [c2; c1; KH; KW] -> wf W' -> shape W' = [c2; c1; KH; KW] ->
      bias_ok bias c2 -> bias_ok bias' c2 -> same_bias bias bias' ->
      is_conv_dw (zeros_mode cfg) W x bias b c1 h1 w1 c2 h2 w2 J -> q < b -> o < c2 -> y0 < h2 -> z0 < w2 ->
      out W' bias' x q o y0 z0 = nadd (nadd (out W bias x q o y0 z0)
        (bsum (NW + nb bias) (fun p => nmul (entry J q (chw h2 w2 o y0 z0) p) (nsub (nth p (params_of W' bias') n0) (nth p (params_of W bias) n0)))))
        (bsum c1 (fun c => bsum KH (fun u => bsum KW (fun v => nmul (ghost x q c (y0 + u) (z0 + v)) (nsub (gt W' [o; c; u; v]) (gt W [o; c; u; v])))))).
    Proof.
      intros WW SW WW' SW' Bo Bo' Sb [HJ HB] Hq Ho Hy Hz.
      assert (KE : kh W = KH /\ kw W = KW) by (unfold kh, kw, dim; rewrite SW; auto). destruct KE as [KE1 KE2]. rewrite KE1, KE2 in HJ, HB.
      assert (R : bsum NW (fun p => nmul (entry J q (chw h2 w2 o y0 z0) p) (nsub (nth p (params_of W' bias') n0) (nth p (params_of W bias) n0))) =
        bsum c1 (fun c => bsum KH (fun u => bsum KW (fun v => nmul (conv_dw (zeros_mode cfg) x h1 w1 q c y0 z0 u v) (nsub (gt W' [o; c; u; v]) (gt W [o; c; u; v])))))).
      { rewrite bsum_p4g. rewrite (bsum_single c2 o); auto.
        - apply bsum_ext; intros c Hc; apply bsum_ext; intros u Hu; apply bsum_ext; intros v Hv. rewrite !par_W by auto.
          pose proof (HJ q o y0 z0 o c u v Hq Ho Hy Hz Ho Hc Hu Hv) as E. rewrite Nat.eqb_refl in E. unfold p4, chw. now rewrite E.
        - intros o' Ho' No. apply bsum_0; intros c Hc; apply bsum_0; intros u Hu; apply bsum_0; intros v Hv.
          pose proof (HJ q o y0 z0 o' c u v Hq Ho Hy Hz Ho' Hc Hu Hv) as E. destruct (Nat.eqb_spec o o'); [congruence|]. unfold p4, chw. rewrite E. ring. }
      assert (B : bsum (nb bias) (fun a => nmul (entry J q (chw h2 w2 o y0 z0) (NW + a)) (nsub (nth (NW + a) (params_of W' bias') n0) (nth (NW + a) (params_of W bias) n0))) =
        nsub match bias' with Some t => gt t [o] | None => n0 end match bias with Some t => gt t [o] | None => n0 end).
      { destruct bias as [t|], bias' as [t'|]; try contradiction; [|cbn [bsum]; ring]. destruct Bo as [St _], Bo' as [St' _].
        rewrite (bsum_single c2 o); auto.
        - rewrite !par_b by auto. pose proof (HB ltac:(discriminate) q o y0 z0 o Hq Ho Hy Hz Ho) as E. rewrite Nat.eqb_refl in E. unfold chw. rewrite E. ring.
        - intros o' Ho' No. pose proof (HB ltac:(discriminate) q o y0 z0 o' Hq Ho Hy Hz Ho') as E. destruct (Nat.eqb_spec o o'); [congruence|]. unfold chw. rewrite E. ring. }
      rewrite bsum_app, R, B. unfold out.
      assert (E : forall A A' C D b1 b2 : K, A' = nadd (nadd A C) D -> nadd A' b2 = nadd (nadd (nadd A b1) (nadd C (nsub b2 b1))) D) by (intros A A' C D b1 b2 ->; ring).
      apply E. rewrite <- !bsum_add. apply bsum_ext; intros c Hc. rewrite <- !bsum_add. apply bsum_ext; intros u Hu. rewrite <- !bsum_add. apply bsum_ext; intros v Hv.
      rewrite (pget_ghost x q c y0 z0 u v) by auto. ring.
    Qed.
    Definition hotW (o c u v : nat) (W : T) : T := tab4 c2 c1 KH KW (fun o' c' u' v' =>
      nadd (gt W [o'; c'; u'; v']) (if (c' =? c) && (u' =? u) && (v' =? v) then n1 else n0)).
    Lemma weight_exact J (W : T) bias x : wf W -> shape W = [c2; c1; KH; KW] -> bias_ok bias c2 ->
      is_conv_dw (zeros_mode cfg) W x bias b c1 h1 w1 c2 h2 w2 J -> shape x = [b; c1; h1; w1] ->
      (forall W' bias', wf W' -> shape W' = shape W -> bias_ok bias' c2 -> same_bias bias bias' ->
        exists y y', fwd (Leaf (Conv2d cfg W bias)) x = Ok y /\ fwd (Leaf (Conv2d cfg W' bias')) x = Ok y' /\
        forall q i, q < b -> i < mm -> nth (q * mm + i) (data y') n0 = nadd (nth (q * mm + i) (data y) n0)
          (bsum (NW + nb bias) (fun p => nmul (entry J q i p) (nsub (nth p (params_of W' bias') n0) (nth p (params_of W bias) n0))))) <->
      (forall q c i j, q < b -> c < c1 -> i < h1 + 2 * ph -> j < w1 + 2 * pw -> inside h1 ph i && inside w1 pw j = false ->
         pget m x h1 w1 ph pw q c i j = n0).
    Proof.
      intros WW SW Bo HJ Sx. split.
      - intros E q c i j Hq Hc Hi Hj O.
        set (y0 := Nat.min i (h2 - 1)). set (z0 := Nat.min j (w2 - 1)). set (u := i - y0). set (v := j - z0).
        assert (Hy : y0 < h2) by (unfold y0; lia). assert (Hz : z0 < w2) by (unfold z0; lia).
        assert (Hu : u < KH) by (unfold u, y0; lia). assert (Hv : v < KW) by (unfold v, z0; lia).
        assert (Ei : y0 + u = i) by (unfold u, y0; lia). assert (Ej : z0 + v = j) by (unfold v, z0; lia).
        clearbody y0 z0 u v.
        destruct (E (hotW 0 c u v W) bias (wf_tab _ _) (eq_trans eq_refl (eq_sym SW)) Bo ltac:(destruct bias; exact I)) as (ya & yz & F1 & F2 & G).
        rewrite (mode_fwd W bias x SW Bo Sx) in F1. injection F1 as <-. rewrite (mode_fwd (hotW 0 c u v W) bias x eq_refl Bo Sx) in F2. injection F2 as <-.
        specialize (G q (chw h2 w2 0 y0 z0) Hq (chw_lt c2 h2 w2 0 y0 z0 Hc2 Hy Hz)). rewrite !fl_tab4g in G by auto.
        rewrite (weight_gap J W (hotW 0 c u v W) bias bias) in G; auto; [|apply wf_tab|destruct bias; exact I].
        assert (Z : forall A B : K, nadd A B = A -> B = n0) by (intros A B EAB; transitivity (nsub (nadd A B) A); [ring|rewrite EAB; ring]).
        apply Z in G. rewrite (bsum_single c1 c) in G; auto.
        + rewrite (bsum_single KH u) in G; auto.
          * rewrite (bsum_single KW v) in G; auto.
            -- rewrite Ei, Ej in G. unfold ghost in G. rewrite O in G. rewrite <- G. unfold hotW. rewrite get_tab4 by auto. rewrite !Nat.eqb_refl. cbn [andb]. ring.
            -- intros v' Hv' Nv. unfold hotW. rewrite get_tab4 by auto. rewrite (proj2 (Nat.eqb_neq v' v) Nv), !andb_false_r. ring.
          * intros u' Hu' Nu. apply bsum_0. intros v' Hv'. unfold hotW. rewrite get_tab4 by auto. rewrite (proj2 (Nat.eqb_neq u' u) Nu), !andb_false_r. cbn [andb]. ring.
        + intros c' Hc' Nc. apply bsum_0. intros u' Hu'. apply bsum_0. intros v' Hv'. unfold hotW. rewrite get_tab4 by auto. rewrite (proj2 (Nat.eqb_neq c' c) Nc). cbn [andb]. ring.
      - intros P W' bias' WW' SW' Bo' Sb. rewrite SW in SW'. do 2 eexists. split; [apply (mode_fwd W bias x SW Bo Sx)|]. split; [apply (mode_fwd W' bias' x SW' Bo' Sx)|].
        intros q i Hq Hi. destruct (chw_ex c2 h2 w2 i Hi) as (o & y0 & z0 & Ho & Hy & Hz & ->). rewrite !fl_tab4g by auto.
        rewrite (weight_gap J W W' bias bias') by auto.
        rewrite (bsum_0 c1); [ring|]. intros c Hc. apply bsum_0. intros u Hu. apply bsum_0. intros v Hv. unfold ghost.
        destruct (inside h1 ph (y0 + u) && inside w1 pw (z0 + v)) eqn:O; [ring|]. rewrite P by (auto; lia). ring.
    Qed.
  End Exact.

  (** A layer whose zero-padded version has right products: jacobian, and what its matrices are right for. *)
  Lemma modes_exact cfg (W : T) bias c1 h1 w1 c2 h2 w2 b (x y : T) : conv_ok (zeros_mode cfg) W bias [c1; h1; w1] [c2; h2; w2] ->
    0 < b -> wf x -> shape x = [b; c1; h1; w1] -> fwd (Leaf (Conv2d cfg W bias)) x = Ok y ->
    let n := c1 * h1 * w1 in let m := c2 * h2 * w2 in let np := n_params (Leaf (Conv2d cfg W bias)) in
    exists JX JW : T, (forall (h : st K), snd (jacobian (Leaf (Conv2d cfg W bias)) h x None Input) = Ok (Some JX) /\
        snd (jacobian (Leaf (Conv2d cfg W bias)) h x None Weight) = Ok (Some JW)) /\
      ((forall z, wf z -> shape z = shape x -> exists yz, fwd (Leaf (Conv2d cfg W bias)) z = Ok yz /\
          forall q i, q < b -> i < m -> nth (q * m + i) (data yz) n0 = nadd (nth (q * m + i) (data y) n0)
            (bsum n (fun j => nmul (entry JX q i j) (nsub (nth (q * n + j) (data z) n0) (nth (q * n + j) (data x) n0))))) <->
       (forall o y2 z2 c y1 z1, o < c2 -> y2 < h2 -> z2 < w2 -> c < c1 -> y1 < h1 -> z1 < w1 -> padded_taps cfg W h1 w1 o y2 z2 c y1 z1 = n0)) /\
      ((forall W' bias', wf W' -> shape W' = shape W -> bias_ok bias' c2 -> (bias = None <-> bias' = None) ->
          exists y', fwd (Leaf (Conv2d cfg W' bias')) x = Ok y' /\
          forall q i, q < b -> i < m -> nth (q * m + i) (data y') n0 = nadd (nth (q * m + i) (data y) n0)
            (bsum np (fun p => nmul (entry JW q i p) (nsub (nth p (params_of W' bias') n0) (nth p (params_of W bias) n0))))) <->
       (forall q c i j, q < b -> c < c1 -> i < h1 + 2 * fst (cpad cfg) -> j < w1 + 2 * snd (cpad cfg) ->
          inside h1 (fst (cpad cfg)) i && inside w1 (snd (cpad cfg)) j = false ->
          pget (cmode cfg) x h1 w1 (fst (cpad cfg)) (snd (cpad cfg)) q c i j = n0)).
  Proof.
    intros Ty Hb Wx Sx F n m np. destruct (conv_exact (zeros_mode cfg) W bias c1 h1 w1 c2 h2 w2 b x Ty Hb Wx Sx) as (JX & JW & y0 & WX & SX & DX & WWt & SWt & DW & F0 & P).
    destruct (modes_like_zeros cfg W bias x y F) as (y0' & F0' & _ & Lk). exists JX, JW.
    split. { intros h. destruct (Lk None h Input) as (E1 & _). destruct (Lk None h Weight) as (E2 & _). rewrite E1, E2.
      destruct (P h None (or_introl eq_refl)) as (A1 & A2 & _). auto. }
    unfold conv_ok in Ty. destruct (shape W) as [|c2' [|c1' [|KH [|KW [|? ?]]]]] eqn:SW; try contradiction.
    cbn [zeros_mode cstride cdil cgroups cpad cmode] in Ty. destruct (cpad cfg) as [ph pw] eqn:Hpa. cbn [fst snd] in *.
    destruct Ty as (-> & -> & Bo & WW & Hst & [Dh Dw] & Hgr & _ & Hph & Hpw & Hh & Hw & Hc1 & Hc2 & Hh1 & Hw1 & Hh2 & Hw2).
    assert (Po : pad_ok (cmode cfg) h1 ph = true /\ pad_ok (cmode cfg) w1 pw = true).
    { unfold fwd in F. cbn [forward snd leaf_forward] in F. unfold conv_forward, conv2d_mode in F. rewrite Sx, SW, Hpa in F. unfold check in F. cbn [fst snd] in F.
      destruct (_ && _ && _ && _) in F; [|discriminate]. destruct (match bias with None => true | Some t => _ end) in F; [|discriminate].
      destruct (pad_ok (cmode cfg) h1 ph && pad_ok (cmode cfg) w1 pw) eqn:E in F; [|discriminate]. now apply andb_prop in E. }
    destruct Po as [Po1 Po2]. split.
    - rewrite <- (input_exact cfg c1 h1 w1 c2 h2 w2 b KH KW ph pw Hst Hgr Hpa Dh Dw Hph Hpw Hh Hw Hc1 Hc2 Hh1 Hw1 Hh2 Hw2 Po1 Po2 JX W bias x Hb SW Bo DX Sx).
      split; intros E z Wz Sz; destruct (E z Wz Sz) as (yz & G).
      + exists y, yz. split; auto.
      + destruct G as (yz' & F1 & F2 & G). rewrite F in F1. injection F1 as <-. exists yz'. split; auto.
    - assert (En : np = c2 * c1 * KH * KW + match bias with Some _ => c2 | None => 0 end).
      { unfold np. cbn [n_params leaf_n_params]. unfold conv_n_params, dim. rewrite SW. cbn [nth]. numels. destruct bias; ring. }
      rewrite <- (weight_exact cfg c1 h1 w1 c2 h2 w2 b KH KW ph pw Hst Hgr Hpa Dh Dw Hph Hpw Hh Hw Hc1 Hc2 Hh1 Hw1 Hh2 Hw2 Po1 Po2 JW W bias x WW SW Bo DW Sx).
      rewrite En, SW.
      assert (Sb : forall bias' : option T, same_bias bias bias' <-> (bias = None <-> bias' = None)).
      { intros bias'. unfold same_bias. destruct bias, bias'; split; auto; try tauto; try (intros _; split; discriminate).
        - intros [_ H]. now specialize (H eq_refl).
        - intros [H _]. now specialize (H eq_refl). }
      split; intros E W' bias' WW' SW' Bo' Sb'; destruct (E W' bias' WW' SW' Bo' ltac:(now apply Sb)) as (yz & G).
      + exists y, yz. split; auto.
      + destruct G as (yz' & F1 & F2 & G). rewrite F in F1. injection F1 as <-. exists yz'. split; auto.
  Qed.
End CM.

(** a kernel with its only entry in the middle, an image that is zero on its border, and ones that are not *)
Definition W_mid : tensor Z := mkT [1; 1; 3; 3] [0; 0; 0; 0; 2; 0; 0; 0; 0]%Z.
Definition W_edge : tensor Z := mkT [1; 1; 3; 3] [0; 0; 0; 3; 2; 0; 0; 0; 0]%Z.
Definition x_mid : tensor Z := mkT [1; 1; 3; 3] [0; 0; 0; 0; 5; 0; 0; 0; 0]%Z.
Definition x_edge : tensor Z := mkT [1; 1; 3; 3] [0; 0; 0; 0; 5; 7; 0; 0; 0]%Z.
Definition cfg_circ : conv_cfg := {| cstride := (1, 1); cpad := (1, 1); cdil := (1, 1); cgroups := 1; cmode := PCircular; cvmap := false |}.
Ltac small H := repeat (destruct H as [|H]; [|try lia]); try lia.
Lemma circ_ok : forall W, W = W_mid \/ W = W_edge -> conv_ok (zeros_mode cfg_circ) W None [1; 3; 3] [1; 3; 3].
Proof. intros W [-> | ->]; unfold conv_ok; cbn; repeat split; try lia; auto. Qed.
Lemma circ_cases :
  (forall o y z c y1 z1, o < 1 -> y < 3 -> z < 3 -> c < 1 -> y1 < 3 -> z1 < 3 -> padded_taps cfg_circ W_mid 3 3 o y z c y1 z1 = 0%Z) /\
  padded_taps cfg_circ W_edge 3 3 0 0 0 0 0 2 = 3%Z /\
  (forall q c i j, q < 1 -> c < 1 -> i < 3 + 2 * 1 -> j < 3 + 2 * 1 -> inside 3 1 i && inside 3 1 j = false -> pget PCircular x_mid 3 3 1 1 q c i j = 0%Z) /\
  pget PCircular x_edge 3 3 1 1 0 0 2 0 = 7%Z /\ inside 3 1 2 && inside 3 1 0 = false.
Proof.
  split; [|split; [reflexivity|split; [|split; reflexivity]]].
  - intros o y z c y1 z1 Ho Hy Hz Hc Hy1 Hz1. assert (o = 0) as -> by lia. assert (c = 0) as -> by lia.
    do 3 (destruct y as [|y]; [do 3 (destruct z as [|z]; [do 3 (destruct y1 as [|y1]; [do 3 (destruct z1 as [|z1]; [reflexivity|]); lia|]); lia|]); lia|]). lia.
  - intros q c i j Hq Hc Hi Hj I. assert (q = 0) as -> by lia. assert (c = 0) as -> by lia.
    do 5 (destruct i as [|i]; [do 5 (destruct j as [|j]; [first [reflexivity|discriminate I]|]); lia|]). lia.
Qed.
