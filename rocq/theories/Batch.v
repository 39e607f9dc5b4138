(** Batch independence: the forward pass and the Jacobian formulas commute with selecting samples. *)
From Coq Require Import String Ascii List Arith ZArith Lia Bool.
From Verif Require Import Scalar Sums Tensor TensorLemmas EinsumLemmas Conv Abstract Simple LinearLayer ConvLayer PoolLayer
  Module Spec OpLemmas ReshapeLemmas Jac LeafSpec LeafSimple LeafAct LeafLinear LeafUpsample ConvBase LeafConv LeafPool
  TreeBase Leaves ReshapeZ BatchSpec.
Import ListNotations.
Local Open Scope nat_scope.
Local Open Scope list_scope.

Section Batch.
  Context {K} `{CR : CRing K}.
  Notation gt := (get (@n0 K _)).
  Notation T := (tensor K).
  Variables (b n : nat) (f : nat -> nat).
  Hypotheses (Hb : 0 < b) (Hn : 0 < n) (Hf : selects n f b).
  Notation pk := (pick n f).

  Lemma mul_pos a c : 0 < a * c -> 0 < a /\ 0 < c. Proof. destruct a, c; lia. Qed.
  Lemma wf_pick (t : T) : wf (pk t). Proof. apply wf_tab. Qed.
  Lemma shape_pick (t : T) s : shape t = b :: s -> shape (pk t) = n :: s.
  Proof. intros S. cbn. now rewrite S. Qed.
  Lemma get_pick (t : T) s q idx : shape t = b :: s -> q < n -> valid s idx -> gt (pk t) (q :: idx) = gt t (f q :: idx).
  Proof. intros S Hq V. unfold pick. rewrite S. cbn [tl]. rewrite (get_tab (A := K)) by (cbn; auto). reflexivity. Qed.
  Lemma fl_pick (t : T) s q i : shape t = b :: s -> q < n -> i < numel s -> fl (numel s) (pk t) q i = fl (numel s) t (f q) i.
  Proof.
    intros S Hq Hi. pose proof (get_pick t s q (unravel s i) S Hq (unravel_valid s i Hi)) as G.
    unfold get in G. rewrite (shape_pick t s S), S in G. cbn [ravel] in G. rewrite ravel_unravel in G by auto. exact G.
  Qed.
  Lemma pick_eq (z t : T) s : wf z -> shape z = n :: s -> shape t = b :: s ->
    (forall q i, q < n -> i < numel s -> fl (numel s) z q i = fl (numel s) t (f q) i) -> z = pk t.
  Proof.
    intros Wz Sz St E. unfold pick. rewrite St. cbn [tl]. rewrite <- Sz. apply (tab_eq n0); auto. rewrite Sz.
    intros idx V. destruct idx as [|q idx]; [contradiction|]. destruct V as [Hq V]. cbn [hd tl].
    specialize (E q (ravel s idx) Hq (ravel_lt _ _ V)). unfold get. rewrite Sz, St. exact E.
  Qed.
  Lemma pick_eq_get (z t : T) s : wf z -> shape z = n :: s -> shape t = b :: s ->
    (forall q idx, q < n -> valid s idx -> gt z (q :: idx) = gt t (f q :: idx)) -> z = pk t.
  Proof.
    intros Wz Sz St E. unfold pick. rewrite St. cbn [tl]. rewrite <- Sz. apply (tab_eq n0); auto. rewrite Sz.
    intros idx V. destruct idx as [|q idx]; [contradiction|]. destruct V as [Hq V]. now apply E.
  Qed.

  (** what independence means for the function and the Jacobian formulas of a layer or tree *)
  Definition indep (F : T -> res T) (JX JW : T -> nat -> nat -> nat -> K) (np : nat) (s s' : list nat) : Prop :=
    forall x y, wf x -> shape x = b :: s -> F x = Ok y -> shape y = b :: s' ->
      F (pk x) = Ok (pk y) /\
      (forall q i j, q < n -> i < numel s' -> j < numel s -> JX (pk x) q i j = JX x (f q) i j) /\
      (forall q i p, q < n -> i < numel s' -> p < np -> JW (pk x) q i p = JW x (f q) i p).

  Definition indep_l (l : leaf K) := indep (leaf_forward l) (leaf_JX l) (leaf_JW l) (leaf_n_params l).
  Definition indep_m (m : module K) := indep (fwd m) (JX m) (JW m) (n_params m).

  Lemma dim_pick (x : T) s k : shape x = b :: s -> dim (pk x) (S k) = dim x (S k).
  Proof. intros S. unfold dim. now rewrite (shape_pick x s S), S. Qed.

  Lemma indep_linear W bias s s' : leaf_typed (Linear W bias) s s' ->
    indep_l (Linear W bias) s s'.
  Proof.
    intros (P1 & P2 & Ty) x y Wx Sx Fy Sy. destruct s as [|c1 [|]], s' as [|c2 [|]]; try contradiction.
    destruct Ty as (SW & WW & Bo). cbn [leaf_forward] in *.
    rewrite (lin_fwd_ok W bias c1 c2 b x SW Bo Sx) in Fy. injection Fy as <-.
    rewrite (lin_fwd_ok W bias c1 c2 n (pk x) SW Bo (shape_pick x _ Sx)).
    assert (G : forall q j, q < n -> j < c1 -> gt (pk x) [q; j] = gt x [f q; j]) by (intros; apply (get_pick x [c1]); cbn; auto).
    split; [|split; [reflexivity|]].
    - f_equal. apply (pick_eq_get _ _ [c2]); try reflexivity; [apply wf_tab|]. intros q idx Hq V. destruct idx as [|i [|]]; cbn in V; try tauto. destruct V as [Hi _].
      rewrite !get_tab2 by (auto; now apply Hf). cbn zeta.
      rewrite (bsum_ext c1 (fun j => nmul (gt (pk x) [q; j]) _) (fun j => nmul (gt x [f q; j]) (gt W [i; j]))); [reflexivity|].
      intros j Hj. now rewrite G.
    - intros q i p Hq Hi Hp. cbn [leaf_JW]. unfold dim, lin_JW. rewrite SW. cbn [nth].
      destruct (Nat.ltb_spec p (c2 * c1)); [|reflexivity]. f_equal. apply G; auto. apply Nat.mod_upper_bound. cbn in P1. lia.
  Qed.

  Lemma pget_pick (x : T) c1 h1 w1 ph pw q c y x0 : shape x = [b; c1; h1; w1] -> q < n -> c < c1 ->
    pget PZeros (pk x) h1 w1 ph pw q c y x0 = pget PZeros x h1 w1 ph pw (f q) c y x0.
  Proof.
    intros Sx Hq Hc. unfold pget, pad_src.
    destruct (Nat.leb_spec ph y), (Nat.ltb_spec y (h1 + ph)), (Nat.leb_spec pw x0), (Nat.ltb_spec x0 (w1 + pw)); cbn [andb]; try reflexivity.
    apply (get_pick x [c1; h1; w1]); auto. cbn. repeat split; auto; lia.
  Qed.
  Lemma indep_conv cfg W bias s s' : leaf_typed (Conv2d cfg W bias) s s' ->
    indep_l (Conv2d cfg W bias) s s'.
  Proof.
    intros (P1 & P2 & Ty) x y Wx Sx Fy Sy. cbn in Ty. unfold conv_ok in Ty.
    destruct s as [|c1 [|h1 [|w1 [|]]]], s' as [|c2 [|h2 [|w2 [|]]]], (shape W) as [|c2' [|c1' [|KH [|KW [|]]]]] eqn:SW; try contradiction.
    destruct Ty as (-> & -> & Bo & WW & St & Di & Gr & Mo & Ph & Pw & Hh & Hw & C1 & C2 & H1 & W1 & H2 & W2).
    destruct (cpad cfg) as [ph pw] eqn:Pa. cbn [fst snd] in *. cbn [leaf_forward] in *.
    assert (OK : forall b0 x0, 0 < b0 -> shape x0 = [b0; c1; h1; w1] -> conv_forward cfg W bias x0 = Ok (tab4 b0 c2 h2 w2 (fun n o y x1 =>
      let s := bsum c1 (fun c => bsum KH (fun u => bsum KW (fun v =>
        nmul (pget PZeros x0 h1 w1 ph pw n c (y + u) (x1 + v)) (gt W [o; c; u; v])))) in
      match bias with None => s | Some t => nadd s (gt t [o]) end))).
    { intros b0 x0 B0 S0. apply (conv_fwd_ok cfg W bias c1 c2 h1 w1 h2 w2 KH KW ph pw b0 x0); auto. now rewrite Pa. }
    rewrite (OK b x Hb Sx) in Fy. injection Fy as <-. rewrite (OK n (pk x) Hn (shape_pick x _ Sx)).
    split; [|split].
    - f_equal. apply (pick_eq_get _ _ [c2; h2; w2]); try reflexivity; [apply wf_tab|]. intros q idx Hq V.
      destruct idx as [|o [|y [|x1 [|]]]]; cbn in V; try tauto. destruct V as (Ho & Hy & Hx & _).
      rewrite !get_tab4 by (auto; now apply Hf). cbn zeta.
      assert (E : bsum c1 (fun c => bsum KH (fun u => bsum KW (fun v =>
        nmul (pget PZeros (pk x) h1 w1 ph pw q c (y + u) (x1 + v)) (gt W [o; c; u; v])))) =
        bsum c1 (fun c => bsum KH (fun u => bsum KW (fun v =>
        nmul (pget PZeros x h1 w1 ph pw (f q) c (y + u) (x1 + v)) (gt W [o; c; u; v]))))).
      { apply bsum_ext; intros c Hc; apply bsum_ext; intros u Hu; apply bsum_ext; intros v Hv. now rewrite (pget_pick x c1). }
      now rewrite E.
    - intros q i j Hq Hi Hj. cbn [leaf_JX]. now rewrite !(dim_pick x _ _ Sx).
    - intros q i p Hq Hi Hp. cbn [leaf_JW]. rewrite !(dim_pick x _ _ Sx). unfold dim, kh, kw, dim. rewrite Sx, SW, Pa. cbn [nth fst snd].
      unfold conv_JW. destruct (Nat.ltb_spec p (c2 * c1 * KH * KW)) as [L|L]; [|reflexivity]. f_equal.
      apply (pget_pick x c1); auto. apply Nat.div_lt_upper_bound; [nia|].
      replace (KH * KW * c1) with (c1 * KH * KW) by ring. apply Nat.mod_upper_bound. nia.
  Qed.
  Lemma indep_act a s s' : leaf_typed (Act a) s s' ->
    indep_l (Act a) s s'.
  Proof.
    intros (P1 & P2 & ->) x y Wx Sx Fy Sy. cbn [leaf_forward] in *. unfold act_forward in *. injection Fy as <-.
    split; [|split; [|reflexivity]].
    - f_equal. apply (pick_eq_get _ _ s); [apply wf_emap, wf_pick|cbn; now rewrite Sx|exact Sy|].
      intros q idx Hq V. rewrite !get_emap; auto.
      + f_equal. now apply (get_pick x s).
      + rewrite Sx. cbn. auto.
      + apply wf_pick.
      + rewrite (shape_pick x s Sx). cbn. auto.
    - intros q i j Hq Hi Hj. cbn [leaf_JX]. unfold per. rewrite (shape_pick x s Sx), Sx. cbn [tl]. now rewrite (fl_pick x s).
  Qed.
  Lemma indep_id l d s s' : l = Flatten \/ l = Reshape d -> leaf_typed l s s' ->
    indep_l l s s'.
  Proof.
    intros L (P1 & P2 & Ty) x y Wx Sx Fy Sy.
    assert (Ns : numel s' = numel s) by (destruct L as [-> | ->]; [subst s'; numels; lia|destruct Ty as [_ ?]; auto]).
    assert (F : forall b0 (x0 : T), 0 < b0 -> shape x0 = b0 :: s -> leaf_forward l x0 = Ok (mkT (b0 :: s') (data x0))).
    { intros b0 x0 B0 S0. destruct L as [-> | ->]; cbn [leaf_forward]; unfold flatten_forward, reshape_forward, size; rewrite S0; cbn [nth_error bind].
      - rewrite (flat_ok x0 b0 s) by (auto; lia). now subst s'.
      - destruct Ty as [M ?]. now apply reshape_z_ok with s. }
    rewrite (F b x) in Fy by auto. injection Fy as <-. rewrite (F n (pk x) Hn (shape_pick x s Sx)).
    split; [|destruct L as [-> | ->]; split; reflexivity].
    f_equal. apply (pick_eq _ _ s'); try reflexivity.
    - unfold wf. cbn [data shape]. rewrite numel_cons, Ns. exact (eq_trans (wf_pick x) (f_equal numel (shape_pick x s Sx))).
    - intros q i Hq Hi. rewrite Ns in *. apply (fl_pick x s); auto.
  Qed.
  Lemma bsum_eq m (g h : nat -> K) : (forall i, i < m -> g i = h i) -> bsum m g = bsum m h.
  Proof. apply bsum_ext. Qed.
  Lemma norm_pick (x : T) s q : shape x = b :: s -> q < n -> l2_norm (numel s) (pk x) q = l2_norm (numel s) x (f q).
  Proof. intros Sx Hq. unfold l2_norm. f_equal. apply bsum_ext. intros j Hj. now rewrite (fl_pick x s). Qed.
  Lemma indep_l2 e s s' : leaf_typed (L2Norm e) s s' ->
    indep_l (L2Norm e) s s'.
  Proof.
    intros (P1 & P2 & ->) x y Wx Sx Fy Sy. cbn [leaf_forward] in *.
    destruct (l2_fwd e b s x Hb Sx) as (y' & E & _ & _ & G). rewrite E in Fy. injection Fy as ->.
    destruct (l2_fwd e n s (pk x) Hn (shape_pick x s Sx)) as (z & E' & Wz & Sz & G').
    split; [|split; [|reflexivity]].
    - rewrite E'. f_equal. apply (pick_eq _ _ s); auto. intros q i Hq Hi. rewrite G', G by (auto; now apply Hf).
      now rewrite (norm_pick x s), (fl_pick x s).
    - intros q i j Hq Hi Hj. cbn [leaf_JX]. unfold per. rewrite (shape_pick x s Sx), Sx. cbn [tl]. unfold l2_JX.
      now rewrite (norm_pick x s), !(fl_pick x s).
  Qed.
  Lemma indep_up sn sd s s' : leaf_typed (Upsample sn sd : leaf K) s s' ->
    indep_l (Upsample sn sd) s s'.
  Proof.
    intros (P1 & P2 & D & E & Ty) x y Wx Sx Fy Sy. destruct s as [|c [|h [|w [|]]]], s' as [|c' [|h2 [|w2 [|]]]]; try contradiction.
    destruct Ty as (-> & -> & ->). cbn [leaf_forward] in *. assert (HJ : leaf_JX (Upsample sn sd) = fun x _ i j => delta (up_src (sn / sd) (dim x 2) (dim x 3) i) j) by reflexivity.
    set (k := sn / sd) in *. clearbody k. rewrite !numel_cons in P1, P2.
    assert (0 < c /\ 0 < h /\ 0 < w /\ 0 < k) as (Hc & Hh & Hw & Hk).
    { repeat match goal with H : 0 < _ * _ |- _ => apply mul_pos in H; destruct H end. repeat split; assumption. }
    rewrite (up_fwd_ok sn sd k c h w b x D E Hc Hh Hw Hk Hb Sx) in Fy. injection Fy as <-.
    rewrite (up_fwd_ok sn sd k c h w n (pk x) D E Hc Hh Hw Hk Hn (shape_pick x _ Sx)).
    split; [|split; [|reflexivity]].
    - f_equal. apply (pick_eq_get _ _ [c; h * k; w * k]); try reflexivity; [apply wf_tab|]. intros q idx Hq V.
      destruct idx as [|o [|y [|x1 [|]]]]; cbn in V; try tauto. destruct V as (Ho & Hy & Hx & _).
      rewrite !get_tab4 by (auto; now apply Hf). apply (get_pick x [c; h; w]); auto. cbn. repeat split; auto; apply Nat.div_lt_upper_bound; lia.
    - intros q i j Hq Hi Hj. rewrite HJ. now rewrite !(dim_pick x _ _ Sx).
  Qed.
  Lemma indep_custom c s s' : custom_batchwise c -> leaf_typed (Custom c) s s' ->
    indep_l (Custom c) s s'.
  Proof.
    intros Bw (P1 & P2 & Ty) x y Wx Sx Fy Sy. cbn [leaf_forward] in *.
    destruct (Ty b x Hb Wx Sx) as (y' & J & E & _ & _ & WJ & SJ & HJ). rewrite E in Fy. injection Fy as ->.
    destruct (Bw b s n f x y J Hb Wx Sx Hn Hf) as [B1 B2]. split; [now apply B1|]. split; [|reflexivity].
    intros q i j Hq Hi Hj. cbn [leaf_JX]. destruct (HJ None (or_introl eq_refl)) as [EJ _]. rewrite EJ, (B2 EJ).
    apply (get_pick J [numel s'; numel s]); auto. cbn. auto.
  Qed.
  Lemma argmax_ext (g h : nat * nat -> K) l : (forall c, In c l -> g c = h c) -> argmax g l = argmax h l.
  Proof.
    intros E. unfold argmax.
    assert (G : forall l' o, (forall c, In c l' -> g c = h c) -> (forall c, o = Some c -> g c = h c) ->
      fold_left (fun best c => match best with None => Some c | Some b => if nltb (g b) (g c) then Some c else Some b end) l' o =
      fold_left (fun best c => match best with None => Some c | Some b => if nltb (h b) (h c) then Some c else Some b end) l' o).
    { induction l' as [|a l' IH]; intros o E1 E2; [reflexivity|]. cbn [fold_left].
      destruct o as [d|].
      - rewrite (E2 d eq_refl), (E1 a (or_introl eq_refl)). apply IH; [intros; apply E1; now right|].
        intros c Ec. destruct nltb; injection Ec as <-; [apply E1; now left|now apply E2].
      - apply IH; [intros; apply E1; now right|]. intros c Ec. injection Ec as <-. apply E1. now left. }
    apply G; auto. discriminate.
  Qed.
  Lemma pool_cell_pick cfg (x : T) c h w q ch y0 x0 : shape x = [b; c; h; w] -> q < n -> ch < c ->
    pool_cell cfg (pk x) h w q ch y0 x0 = pool_cell cfg x h w (f q) ch y0 x0.
  Proof.
    intros Sx Hq Hc. unfold pool_cell. apply argmax_ext. intros p Hp. apply in_cells in Hp. destruct Hp as [I1 I2].
    apply (get_pick x [c; h; w]); auto. cbn. repeat split; auto; eapply window_lt; eauto.
  Qed.
  Lemma indep_pool cfg s s' : pool_typed cfg s s' ->
    indep_m (MaxPool cfg) s s'.
  Proof.
    intros (P1 & P2 & Ty) x y Wx Sx Fy Sy. destruct s as [|c [|h [|w [|]]]], s' as [|c' [|h2 [|w2 [|]]]]; try contradiction.
    destruct Ty as (-> & L1 & L2 & O1 & O2 & X1 & X2). rewrite !numel_cons in P1, P2.
    assert (0 < c /\ 0 < h /\ 0 < w /\ 0 < h2 /\ 0 < w2) as (Hc & Hh & Hw & Hh2 & Hw2).
    { repeat match goal with H : 0 < _ * _ |- _ => apply mul_pos in H; destruct H end. repeat split; assumption. }
    destruct (pool_ok_fwd cfg c h w h2 w2 b x Hc Hh Hw Hh2 Hw2 Hb Sx L1 L2 O1 O2) as (y' & i' & E & Wy & Sy' & _ & _ & G).
    destruct (pool_ok_fwd cfg c h w h2 w2 n (pk x) Hc Hh Hw Hh2 Hw2 Hn (shape_pick x _ Sx) L1 L2 O1 O2) as (z & i'' & E' & Wz & Sz & _ & _ & G').
    rewrite fwd_Pool, E in Fy. injection Fy as ->. rewrite fwd_Pool, E'. cbn [bind fst].
    split; [|split; [|reflexivity]].
    - f_equal. apply (pick_eq_get _ _ [c; h2; w2]); auto. intros q idx Hq V.
      destruct idx as [|o [|y0 [|x1 [|]]]]; cbn in V; try tauto. destruct V as (Ho & Hy & Hx & _).
      destruct (G (f q) o y0 x1) as (cy & cx & Ec & _ & -> & Hcy & Hcx & _); auto.
      destruct (G' q o y0 x1) as (cy' & cx' & Ec' & _ & -> & _); auto.
      rewrite (pool_cell_pick cfg x c) in Ec' by auto. rewrite Ec in Ec'. injection Ec' as <- <-.
      apply (get_pick x [c; h; w]); auto. cbn. auto.
    - intros q i j Hq Hi Hj. cbn [JX]. unfold pool_src. rewrite !(dim_pick x _ _ Sx). unfold dim. rewrite Sx. cbn [nth]. rewrite L1, L2.
      rewrite (pool_cell_pick cfg x c); auto. rewrite !numel_cons, numel_nil, Nat.mul_1_r in Hi. apply Nat.div_lt_upper_bound; [nia|]. now rewrite Nat.mul_comm.
  Qed.
  Lemma indep_leaf l s s' : batchwise (Leaf l) -> leaf_typed l s s' ->
    indep_l l s s'.
  Proof.
    intros Bw Ty. destruct l.
    - now apply indep_linear.
    - now apply indep_conv.
    - now apply indep_act.
    - apply (indep_id Flatten []); auto.
    - apply (indep_id (Reshape dims) dims); auto.
    - now apply indep_l2.
    - now apply indep_up.
    - now apply indep_custom.
  Qed.

  (** *** trees *)
  Lemma cat_fl b0 (x y : T) c c' r : shape x = b0 :: c :: r -> shape y = b0 :: c' :: r ->
    exists z, cat n0 1 [x; y] = Ok z /\ wf z /\ shape z = b0 :: (c + c') :: r /\
    forall q i, q < b0 -> i < numel ((c + c') :: r) ->
      fl (numel ((c + c') :: r)) z q i = if i <? numel (c :: r) then fl (numel (c :: r)) x q i else fl (numel (c' :: r)) y q (i - numel (c :: r)).
  Proof.
    intros S S'. unfold cat, rank, dim. cbn [forallb map]. rewrite S, S'.
    cbn [length nth set_nth shape_eqb]. replace (1 <? Datatypes.S (Datatypes.S (length r))) with true by reflexivity. cbn -[set_nth cat_pick Nat.ltb numel fl]. unfold shape_eqb.
    destruct list_eq_dec as [_|NN]; [|exfalso; apply NN; reflexivity]. cbn -[set_nth cat_pick Nat.ltb numel fl].
    eexists. split; [reflexivity|]. split; [apply wf_tab|]. split; [cbn; now rewrite Nat.add_0_r|].
    intros q i Hq Hi. cbn [set_nth]. rewrite !Nat.add_0_r. unfold fl at 1.
    pose proof (flat_lt b0 (numel ((c + c') :: r)) q i Hq Hi) as L.
    rewrite flat_tab by (rewrite numel_cons; exact L).
    cbn [unravel nth]. destruct (divmod_flat (numel ((c + c') :: r)) q i Hi) as [-> ->].
    rewrite numel_cons in Hi. rewrite !numel_cons. set (k := numel r) in *.
    assert (Pn : 0 < k) by (destruct k; [rewrite Nat.mul_0_r in Hi; lia|lia]).
    assert (Hk : i / k < c + c') by (apply Nat.div_lt_upper_bound; lia).
    pose proof (Nat.div_mod i k ltac:(lia)) as Dm. pose proof (Nat.mod_upper_bound i k ltac:(lia)) as Mb.
    cbn [cat_pick set_nth]. unfold dim. rewrite S, S'. cbn [nth].
    destruct (Nat.ltb_spec (i / k) c) as [H|H].
    - destruct (Nat.ltb_spec i (c * k)) as [_|H']; [|exfalso; nia].
      unfold get, fl. rewrite S. cbn [ravel]. rewrite ravel_unravel by exact Mb. rewrite numel_cons. fold k. f_equal. nia.
    - destruct (Nat.ltb_spec i (c * k)) as [H'|H']; [exfalso; nia|].
      destruct (Nat.ltb_spec (i / k - c) c') as [_|H2]; [|exfalso; lia].
      unfold get, fl. rewrite S'. cbn [ravel]. rewrite ravel_unravel by exact Mb. rewrite numel_cons. fold k. f_equal. nia.
  Qed.

  Lemma tree_indep :
    (forall m s s', typed m s s' -> batchwise m -> indep_m m s s') /\
    (forall ms s s', typed_seq ms s s' -> batchwise_seq ms -> indep (fwd_seq ms) (seq_JX JX ms) (seq_JW JW ms) (seq_np ms) s s').
  Proof.
    apply typed_both.
    - intros l s s' Ty Bw. exact (indep_leaf l s s' Bw Ty).
    - intros cfg s s' Ty _. now apply indep_pool.
    - intros ms s s' Ty IH Bw x y Wx Sx Fy Sy. rewrite fwd_Seq in *. destruct (IH Bw x y Wx Sx Fy Sy) as (A & B & C). auto.
    - intros ms c c' r Ty IH Bw x z Wx Sx Fz Sz. rewrite fwd_Skip in *.
      destruct (typed_fwd BF BPF (Seq true ms) (c :: r) (c' :: r) (ty_seq _ _ _ Ty) b x Hb Wx Sx) as (y & Fy & Wy & Sy).
      rewrite Fy in Fz. cbn [bind] in Fz.
      destruct (cat_fl b x y c c' r Sx Sy) as (z' & Ez & _ & _ & G). rewrite Ez in Fz. injection Fz as ->.
      pose proof Fy as Fy'. rewrite fwd_Seq in Fy'. destruct (IH Bw x y Wx Sx Fy' Sy) as (A & B & C).
      rewrite fwd_Seq, A. cbn [bind].
      destruct (cat_fl n (pk x) (pk y) c c' r (shape_pick x _ Sx) (shape_pick y _ Sy)) as (z' & Ez' & Wz' & Sz' & G').
      assert (Pr : per (pk x) = numel (c :: r) /\ per x = numel (c :: r)) by (unfold per; rewrite (shape_pick x _ Sx), Sx; auto).
      destruct Pr as [Pr1 Pr2].
      split; [|split].
      + rewrite Ez'. f_equal. apply (pick_eq _ _ ((c + c') :: r)); auto. intros q i Hq Hi.
        rewrite G', G by auto. destruct (Nat.ltb_spec i (numel (c :: r))) as [H|H]; apply fl_pick; auto.
        clear - Hi H; rewrite !numel_cons in *; nia.
      + intros q i j Hq Hi Hj. cbn [JX]. rewrite Pr1, Pr2. destruct (Nat.ltb_spec i (numel (c :: r))) as [H|H]; auto. apply B; auto. clear - Hi H; rewrite !numel_cons in *; nia.
      + intros q i p Hq Hi Hp. cbn [JW]. rewrite Pr1, Pr2. destruct (Nat.ltb_spec i (numel (c :: r))) as [H|H]; auto. apply C; auto. clear - Hi H; rewrite !numel_cons in *; nia.
    - intros s P _ x y Wx Sx Fy Sy. cbn in Fy. injection Fy as <-. cbn. repeat split; auto.
    - intros m ms s s1 s2 Tm IHm Ts IHs [Bm Bs] x z Wx Sx Fz Sz. cbn [fwd_seq seq_JX seq_JW seq_np fold_right] in *.
      destruct (typed_fwd BF BPF m s s1 Tm b x Hb Wx Sx) as (y & Fy & Wy & Sy). rewrite Fy in Fz. cbn [bind] in Fz.
      destruct (IHm Bm x y Wx Sx Fy Sy) as (A & B & C). destruct (IHs Bs y z Wy Sy Fz Sz) as (A' & B' & C').
      rewrite A, Fy. cbn [bind].
      assert (Pr : per (pk y) = numel s1 /\ per y = numel s1) by (unfold per; rewrite (shape_pick y _ Sy), Sy; auto).
      destruct Pr as [Pr1 Pr2]. cbv zeta. rewrite Pr1, Pr2. split; [exact A'|]. split.
      + intros q i j Hq Hi Hj. apply bsum_ext. intros k Hk. now rewrite B', B.
      + intros q i p Hq Hi Hp. destruct (Nat.ltb_spec p (n_params m)) as [L|L].
        * apply bsum_ext. intros k Hk. now rewrite B', C.
        * apply C'; auto. unfold seq_np in *. cbn [fold_right] in Hp. lia.
  Qed.
End Batch.
