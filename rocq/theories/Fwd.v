(** forward of each layer, entry by entry. *)
From Coq Require Import List Arith ZArith Lia Bool Reals Lra.
From Verif Require Import Scalar Sums Tensor TensorLemmas Conv Abstract Simple LinearLayer ConvLayer PoolLayer Module Spec Domain
  OpLemmas Jac LeafSpec LeafLinear LeafAct LeafUpsample LeafPool PoolExact TreeBase ReshapeZ FwdSpec.
Import ListNotations.
Local Open Scope nat_scope.
Local Open Scope list_scope.

Lemma in_window_iff n k s p d o r : In r (window n k s p d o) <-> in_window n k s p d o r.
Proof.
  unfold window, in_window. rewrite in_flat_map. split.
  - intros (u & Hu & Hr). apply in_seq in Hu. cbv zeta in Hr.
    destruct (Nat.leb_spec p (o * s + u * d)); cbn [andb In] in Hr; try contradiction.
    destruct (Nat.ltb_spec (o * s + u * d) (n + p)); cbn [andb In] in Hr; try contradiction. destruct Hr as [<-|[]].
    split; [lia|]. exists u. lia.
  - intros [Hr (u & Hu & E)]. exists u. split; [apply in_seq; lia|]. cbv zeta.
    rewrite (proj2 (Nat.leb_le _ _)), (proj2 (Nat.ltb_lt _ _)) by lia. cbn. left. lia.
Qed.
Lemma argmax_max (f : nat * nat -> R) l c : argmax f l = Some c -> forall c', In c' l -> (f c' <= f c)%R.
Proof.
  unfold argmax.
  assert (G : forall l o, fold_left (fun best c => match best with None => Some c | Some b => if nltb (f b) (f c) then Some c else Some b end) l o = Some c ->
    (forall c', In c' l -> (f c' <= f c)%R) /\ match o with Some p => (f p <= f c)%R | None => True end).
  { clear l. induction l as [|a l IH]; cbn [fold_left]; intros o E.
    - split; [intros c' []|]. subst o. apply Rle_refl.
    - destruct o as [p|]; apply IH in E as [E1 E2].
      + cbn [nltb Num_R] in E2. destruct (Rlt_dec (f p) (f a)) as [L|L].
        * split; [|lra]. intros c' [<-|I]; auto.
        * split; [|exact E2]. intros c' [<-|I]; auto. lra.
      + split; auto. intros c' [<-|I]; auto. }
  intros E. now apply G in E as [E _].
Qed.

(** MaxPool2d: the maximum of the window, and jacobian picks an entry that attains it *)
Lemma pool_is_max cfg c h w h2 w2 b (x : tensor R) :
  pool_sized cfg [c; h; w] [c; h2; w2] -> 0 < b -> wf x -> shape x = [b; c; h; w] ->
  exists y, fwd (MaxPool cfg) x = Ok y /\ wf y /\ shape y = [b; c; h2; w2] /\
    forall q ch i j, q < b -> ch < c -> i < h2 -> j < w2 ->
      let inside r t := in_window h (fst (pk cfg)) (fst (ps cfg)) (fst (pp cfg)) (fst (pd cfg)) i r /\
                        in_window w (snd (pk cfg)) (snd (ps cfg)) (snd (pp cfg)) (snd (pd cfg)) j t in
      (forall r t, inside r t -> (get 0 x [q; ch; r; t] <= get 0 y [q; ch; i; j])%R) /\
      exists r t, inside r t /\ get 0%R y [q; ch; i; j] = get 0%R x [q; ch; r; t].
Proof.
  intros (_ & Hc & Hh & Hw & Hh2 & Hw2 & L1 & L2 & O1 & O2) Hb Wx Sx.
  destruct (pool_ok_fwd (K := R) cfg c h w h2 w2 b x Hc Hh Hw Hh2 Hw2 Hb Sx L1 L2 O1 O2) as (y & i0 & E & Wy & Sy & _ & _ & P).
  exists y. split; [rewrite fwd_Pool, E; reflexivity|]. split; auto. split; auto.
  intros q ch i j Hq Hch Hi Hj. destruct (P q ch i j Hq Hch Hi Hj) as (cy & cx & Ec & _ & Ey & _ & _ & I1 & I2). split.
  - intros r t [Ir It]. apply in_window_iff in Ir, It. unfold pool_cell in Ec.
    pose proof (argmax_max _ _ _ Ec (r, t)) as M. cbn [fst snd] in M. change (@n0 R _) with 0%R in *. rewrite Ey. apply M.
    apply in_cells. cbn. auto.
  - exists cy, cx. split; [split; now apply in_window_iff|]. exact Ey.
Qed.

Section Fwd.
  Context {K} `{CR : CRing K}.
  Add Ring Kring : (cring : ring_theory n0 n1 nadd nmul nsub nopp (@eq K)).
  Notation gt := (get (@n0 K _)).
  Notation T := (tensor K).

  Lemma linear_is W bias c1 c2 b (x : T) : leaf_typed (Linear W bias) [c1] [c2] -> shape x = [b; c1] ->
    exists y, fwd (Leaf (Linear W bias)) x = Ok y /\ wf y /\ shape y = [b; c2] /\
      forall q i, q < b -> i < c2 -> gt y [q; i] = nadd (bsum c1 (fun j => nmul (gt W [i; j]) (gt x [q; j]))) (bias_at bias i).
  Proof.
    intros (_ & _ & SW & WW & BO) Sx. rewrite fwd_Leaf. cbn [leaf_forward].
    unfold lin_forward. rewrite Sx, SW, Nat.eqb_refl. cbn [check].
    assert (E : match bias with Some t => shape_eqb (shape t) [c2] | None => true end = true).
    { destruct bias as [t|]; auto. destruct BO as [-> _]. apply shape_eqb_refl. }
    rewrite E. cbn [check]. eexists. split; [reflexivity|]. split; [apply wf_tab|]. split; [reflexivity|].
    intros q i Hq Hi. rewrite get_tab2 by auto. cbv zeta. unfold bias_at.
    rewrite (bsum_ext c1 _ (fun j => nmul (gt W [i; j]) (gt x [q; j]))) by (intros; ring). destruct bias; ring.
  Qed.

  (** Conv2d with zero padding: any stride, padding, dilation and number of groups *)
  Lemma conv_is cfg (W : T) bias b c1 h w c2 cg kh kw (x y : T) :
    cmode cfg = PZeros -> shape x = [b; c1; h; w] -> shape W = [c2; cg; kh; kw] -> fwd (Leaf (Conv2d cfg W bias)) x = Ok y ->
    exists h2 w2, wf y /\ shape y = [b; c2; h2; w2] /\
      (h2 - 1) * fst (cstride cfg) + fst (cdil cfg) * (kh - 1) + 1 <= h + 2 * fst (cpad cfg) /\
      h + 2 * fst (cpad cfg) < h2 * fst (cstride cfg) + fst (cdil cfg) * (kh - 1) + 1 /\
      (w2 - 1) * snd (cstride cfg) + snd (cdil cfg) * (kw - 1) + 1 <= w + 2 * snd (cpad cfg) /\
      w + 2 * snd (cpad cfg) < w2 * snd (cstride cfg) + snd (cdil cfg) * (kw - 1) + 1 /\
      forall q o r t, q < b -> o < c2 -> r < h2 -> t < w2 ->
        gt y [q; o; r; t] = nadd (bsum cg (fun c => bsum kh (fun u => bsum kw (fun v =>
          nmul (gt W [o; c; u; v])
               (pixel x h w q (o / (c2 / cgroups cfg) * cg + c)
                  (Z.of_nat (r * fst (cstride cfg) + u * fst (cdil cfg)) - Z.of_nat (fst (cpad cfg)))
                  (Z.of_nat (t * snd (cstride cfg) + v * snd (cdil cfg)) - Z.of_nat (snd (cpad cfg)))))))) (bias_at bias o).
  Proof.
    intros Mo Sx SW F. rewrite fwd_Leaf in F. cbn [leaf_forward] in F. unfold conv_forward, conv2d_mode in F. rewrite Sx, SW, Mo in F.
    destruct (_ && _) in F; [cbn [check] in F|discriminate].
    destruct (match bias with None => true | Some t => shape_eqb (shape t) [c2] end); [cbn [check] in F|discriminate].
    destruct (pad_ok _ _ _ && _) in F; [cbn [check] in F|discriminate].
    assert (L : forall n k s p d o, out_len n k s p d = Some o -> (o - 1) * s + d * (k - 1) + 1 <= n + 2 * p /\ n + 2 * p < o * s + d * (k - 1) + 1).
    { clear. intros n k s p d o. unfold out_len. destruct (_ && _) eqn:E; [|discriminate]. intros Eo. injection Eo as <-.
      repeat (apply andb_prop in E as [E ?]). apply Nat.ltb_lt in H0, H1. apply Nat.leb_le in H.
      set (D := d * (k - 1) + 1) in *. set (A := n + 2 * p - D). pose proof (Nat.div_mod A s ltac:(lia)). pose proof (Nat.mod_upper_bound A s ltac:(lia)).
      change (n + (p + (p + 0)) - D) with A. set (e := A / s) in *. clearbody e. replace (e + 1 - 1) with e by lia. rewrite Nat.mul_add_distr_r, (Nat.mul_comm e s). unfold A in *. lia. }
    destruct (out_len h _ _ _ _) as [h2|] eqn:L1 in F; [|discriminate]. destruct (out_len w _ _ _ _) as [w2|] eqn:L2 in F; [|discriminate].
    injection F as <-. apply L in L1, L2. exists h2, w2. split; [apply wf_tab|]. split; [reflexivity|].
    repeat split; try tauto. intros q o r t Hq Ho Hr Ht. rewrite get_tab4 by auto. cbv zeta.
    assert (Pg : forall c a a', pget PZeros x h w (fst (cpad cfg)) (snd (cpad cfg)) q c a a' =
      pixel x h w q c (Z.of_nat a - Z.of_nat (fst (cpad cfg))) (Z.of_nat a' - Z.of_nat (snd (cpad cfg)))).
    { clear. intros c a a'. unfold pget, pixel, pad_src.
      set (p1 := fst (cpad cfg)). set (p2 := snd (cpad cfg)). clearbody p1 p2.
      replace (0 <=? Z.of_nat a - Z.of_nat p1)%Z with (p1 <=? a) by (apply eq_true_iff_eq; rewrite Nat.leb_le, Z.leb_le; lia).
      replace (Z.of_nat a - Z.of_nat p1 <? Z.of_nat h)%Z with (a <? h + p1) by (apply eq_true_iff_eq; rewrite Nat.ltb_lt, Z.ltb_lt; lia).
      replace (0 <=? Z.of_nat a' - Z.of_nat p2)%Z with (p2 <=? a') by (apply eq_true_iff_eq; rewrite Nat.leb_le, Z.leb_le; lia).
      replace (Z.of_nat a' - Z.of_nat p2 <? Z.of_nat w)%Z with (a' <? w + p2) by (apply eq_true_iff_eq; rewrite Nat.ltb_lt, Z.ltb_lt; lia).
      destruct (Nat.leb_spec p1 a), (Nat.ltb_spec a (h + p1)), (Nat.leb_spec p2 a'), (Nat.ltb_spec a' (w + p2)); cbn [andb]; auto.
      f_equal. f_equal. f_equal. f_equal; [lia|]. f_equal. lia. }
    unfold bias_at. match goal with |- match bias with None => ?s | _ => _ end = nadd ?s' _ => replace s' with s end.
    - destruct bias; ring.
    - apply bsum_ext. intros c Hc. apply bsum_ext. intros u Hu. apply bsum_ext. intros v Hv. rewrite Pg. ring.
  Qed.

  Lemma upsample_is k c h w b (x : T) : 0 < k -> 0 < h -> 0 < w -> shape x = [b; c; h; w] ->
    exists y, fwd (Leaf (Upsample k 1)) x = Ok y /\ wf y /\ shape y = [b; c; h * k; w * k] /\
      forall q ch i j u v, q < b -> ch < c -> i < h -> j < w -> u < k -> v < k -> gt y [q; ch; i * k + u; j * k + v] = gt x [q; ch; i; j].
  Proof.
    intros Hk Hh Hw Sx. rewrite fwd_Leaf. cbn [leaf_forward]. unfold up_forward, upsample_nearest. rewrite Sx, !Nat.div_1_r.
    replace ((0 <? k) && (0 <? 1) && (0 <? h * k) && (0 <? w * k))%nat with true
      by (symmetry; repeat (apply andb_true_intro; split); apply Nat.ltb_lt; nia).
    cbn [check]. eexists. split; [reflexivity|]. split; [apply wf_tab|]. split; [reflexivity|].
    intros q ch i j u v Hq Hch Hi Hj Hu Hv. rewrite get_tab4 by (auto; nia). f_equal.
    assert (P : forall n a d, a < n -> d < k -> Nat.min ((a * k + d) * 1 / k) (n - 1) = a).
    { intros n a d Ha Hd. rewrite Nat.mul_1_r, (Nat.add_comm (a * k)), Nat.div_add, Nat.div_small by lia. lia. }
    now rewrite !P.
  Qed.

  (** Flatten and Reshape keep the entries in row-major order *)
  Lemma flatten_is b s (x : T) : 0 < b -> shape x = b :: s -> fwd (Leaf Flatten) x = Ok (mkT [b; numel s] (data x)).
  Proof. intros Hb Sx. rewrite fwd_Leaf. cbn [leaf_forward]. unfold flatten_forward, size. rewrite Sx. cbn. apply flat_ok; auto; lia. Qed.
  Lemma reshape_both b s d (x : T) : 0 < b -> shape x = b :: s ->
    fwd (Leaf (Reshape (map Z.of_nat d))) x = if Nat.eq_dec (numel d) (numel s) then Ok (mkT (b :: d) (data x)) else Raise RuntimeError.
  Proof.
    intros Hb Sx. rewrite fwd_Leaf. cbn [leaf_forward]. unfold reshape_forward, size. rewrite Sx. cbn [nth_error bind].
    change (Z.of_nat b :: map Z.of_nat d) with (map Z.of_nat (b :: d)). rewrite reshape_z_nat. destruct Nat.eq_dec as [E|E].
    - apply reshape_ok. now rewrite Sx, !numel_cons, E.
    - unfold reshape. rewrite Sx, !numel_cons. destruct (Nat.eqb_spec (b * numel d) (b * numel s)); auto. nia.
  Qed.
  Lemma reshape_infer b s d (x : T) : 0 < b -> 0 < numel s -> shape x = b :: s ->
    (forall s', dims_match d s' = true -> numel s' = numel s -> fwd (Leaf (Reshape d)) x = Ok (mkT (b :: s') (data x))) /\
    ((forall s', dims_match d s' = true -> numel s' <> numel s) -> fwd (Leaf (Reshape d)) x = Raise RuntimeError).
  Proof.
    intros Hb Hs Sx. rewrite fwd_Leaf. cbn [leaf_forward]. unfold reshape_forward, size. rewrite Sx. cbn [nth_error bind]. split.
    - intros s' M E. now apply reshape_z_ok with s.
    - intros Hn. destruct (reshape_z_cases b d x) as [(s' & M & E & _)|E]; auto. rewrite Sx, !numel_cons in E. exfalso. apply (Hn s' M). nia.
  Qed.

  (** Sequential composes; SkipConnection puts the input before the output along dimension 1 *)
  Lemma seq_is h (m : module K) ms x : fwd (Seq h (m :: ms)) x = (y <- fwd m x ;; fwd (Seq h ms) y).
  Proof. rewrite fwd_Seq. cbn [fwd_seq]. destruct (fwd m x); auto. cbn [bind]. now rewrite fwd_Seq. Qed.
  Lemma seq_nil_is h x : fwd (Seq h [] : module K) x = Ok x.
  Proof. now rewrite fwd_Seq. Qed.
  Lemma seq_both h (m : module K) ms x : fwd (Seq h [] : module K) x = Ok x /\ fwd (Seq h (m :: ms)) x = (y <- fwd m x ;; fwd (Seq h ms) y).
  Proof. split; [apply seq_nil_is|apply seq_is]. Qed.
  Lemma skip_is (F : module K) b c c' r x y : fwd F x = Ok y -> shape x = b :: c :: r -> shape y = b :: c' :: r ->
    exists z, fwd (Skip F) x = Ok z /\ wf z /\ shape z = b :: (c + c') :: r /\
      (forall q i idx, q < b -> i < c -> valid r idx -> gt z (q :: i :: idx) = gt x (q :: i :: idx)) /\
      (forall q i idx, q < b -> i < c' -> valid r idx -> gt z (q :: c + i :: idx) = gt y (q :: i :: idx)).
  Proof.
    intros Fy Sx Sy. rewrite fwd_Skip, Fy. cbn [bind].
    unfold cat, rank, dim. cbn [forallb map]. rewrite Sx, Sy.
    cbn [length nth set_nth shape_eqb]. replace (1 <? Datatypes.S (Datatypes.S (length r))) with true by reflexivity. cbn -[set_nth cat_pick Nat.ltb numel]. unfold shape_eqb.
    destruct list_eq_dec as [_|NN]; [|exfalso; apply NN; reflexivity]. cbn -[set_nth cat_pick Nat.ltb numel].
    eexists. split; [reflexivity|]. split; [apply wf_tab|]. split; [cbn; now rewrite Nat.add_0_r|].
    cbn [set_nth]. rewrite !Nat.add_0_r. split; intros q i idx Hq Hi V; (rewrite get_tab by (cbn; repeat split; auto; lia)); cbn [nth cat_pick set_nth]; unfold dim; rewrite Sx, ?Sy; cbn [nth].
    - now rewrite (proj2 (Nat.ltb_lt _ _) Hi).
    - destruct (Nat.ltb_spec (c + i) c); [lia|]. replace (c + i - c) with i by lia. now rewrite (proj2 (Nat.ltb_lt _ _) Hi).
  Qed.
  (** SkipConnection refuses a subnetwork whose output differs from its input in a dimension other than 1 *)
  Lemma skip_bad (F : module K) b c c' r r' x y : fwd F x = Ok y -> shape x = b :: c :: r -> shape y = b :: c' :: r' -> r <> r' ->
    fwd (Skip F) x = Raise RuntimeError.
  Proof.
    intros Fy Sx Sy Nr. rewrite fwd_Skip, Fy. cbn [bind].
    unfold cat. replace (1 <? rank x) with true by (unfold rank; now rewrite Sx).
    replace (forallb _ [x; y]) with false; [reflexivity|]. symmetry. cbn [forallb]. rewrite Sx, Sy. cbn [set_nth]. unfold shape_eqb.
    destruct list_eq_dec; cbn [andb]; [|reflexivity]. destruct list_eq_dec; [congruence|reflexivity].
  Qed.
End Fwd.

(** activations and L2Norm over the reals *)
Lemma act_is a (x : tensor R) : wf x ->
  exists y, fwd (Leaf (Act a)) x = Ok y /\ wf y /\ shape y = shape x /\
    forall idx, valid (shape x) idx -> let v := get 0%R x idx in get 0%R y idx =
      match a with
      | Tanh => ((exp v - exp (- v)) / (exp v + exp (- v)))%R
      | ReLU => Rmax 0 v
      | Sigmoid => (/ (1 + exp (- v)))%R
      | Sinusoidal => sin v
      | Softplus beta threshold => if Rlt_dec threshold (beta * v) then v else (ln (1 + exp (beta * v)) / beta)%R
      | TruncExp => exp v
      end.
Proof.
  intros Wx. rewrite fwd_Leaf. cbn [leaf_forward]. unfold act_forward. eexists. split; [reflexivity|]. split; [now apply wf_emap|]. split; [reflexivity|].
  intros idx V. etransitivity; [exact (get_emap (K := R) (act_fun a) x idx Wx V)|]. change (@n0 R _) with 0%R. generalize (get 0%R x idx). intros v. destruct a; cbn; auto.
  - unfold tanh, sinh, cosh. pose proof (exp_pos v). pose proof (exp_pos (- v)). field. lra.
  - unfold Rmax. destruct (Rlt_dec 0 v), (Rle_dec 0 v); auto; lra.
  - unfold sigmoid. cbn. lra.
  - destruct Rlt_dec; reflexivity.
Qed.
Lemma l2_is eps b s (x : tensor R) : 0 < b -> wf x -> shape x = b :: s ->
  exists y, fwd (Leaf (L2Norm eps)) x = Ok y /\ wf y /\ shape y = b :: s /\
    forall q i, q < b -> i < numel s ->
      nth (q * numel s + i) (data y) 0%R =
      (nth (q * numel s + i) (data x) 0 / (sqrt (bsum (numel s) (fun j => nth (q * numel s + j) (data x) 0 * nth (q * numel s + j) (data x) 0)) + eps))%R.
Proof.
  intros Hb Wx Sx. rewrite fwd_Leaf. cbn [leaf_forward].
  destruct (l2_fwd (K := R) eps b s x Hb Sx) as (y & E & Wy & Sy & P). exists y. split; auto. split; auto. split; auto.
  intros q i Hq Hi. specialize (P q i Hq Hi). unfold fl in P. etransitivity; [exact P|].
  unfold l2_norm, fl. cbn. unfold Rdiv. ring.
Qed.
