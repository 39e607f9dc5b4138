(** Upsample (nearest) with a fractional scale factor sn/sd: when jacobian, vjp and mjp raise, and that a result they do
    return is wrong unless the image is a single pixel. *)
From Coq Require Import List Arith ZArith Lia Bool Reals Lra.
From Verif Require Import Scalar Sums Tensor TensorLemmas Conv Abstract Simple LinearLayer ConvLayer PoolLayer Module Spec Domain Jac
  OpLemmas ReshapeLemmas LeafSpec LeafUpsample LayerExact Smooth Calc DerivLeaf Deriv LinDeriv LoudSpec UpModes UpExact.
Import ListNotations.
Local Open Scope nat_scope.
Local Open Scope list_scope.
Local Opaque derivable_pt_lim.

Section Gen.
  Context {K} `{CR : CRing K}.
  Add Ring Kring : (cring : ring_theory n0 n1 nadd nmul nsub nopp (@eq K)).
  Notation gt := (get (@n0 K _)).
  Notation T := (tensor K).
  Variables (sn sd k : nat).
  Hypothesis (Ek : iscale sn sd = k).

  Lemma gen_out_len n : 0 < k -> k <= n -> out_len n k k 0 1 = Some (n / k).
  Proof.
    intros Hk Hn. unfold out_len.
    replace ((0 <? k) && (0 <? k) && (0 <? 1) && (1 * (k - 1) + 1 <=? n + 2 * 0))%nat with true.
    2:{ symmetry. repeat (apply andb_true_intro; split); try (apply Nat.ltb_lt; lia). apply Nat.leb_le. lia. }
    f_equal. replace (n + 2 * 0 - (1 * (k - 1) + 1)) with (n - k) by lia.
    replace (n / k) with ((n - k + 1 * k) / k) by (f_equal; lia). rewrite Nat.div_add by lia. reflexivity.
  Qed.
  Lemma gen_conv (a : T) N H W : 0 < k -> k <= H -> k <= W -> shape a = [N; 1; H; W] ->
    up_conv sn sd a = Ok (tab4 N 1 (H / k) (W / k) (fun n _ y0 x0 =>
      bsum k (fun u => bsum k (fun v => gt a [n; 0; y0 * k + u; x0 * k + v])))).
  Proof.
    intros Hk HH HW S. unfold up_conv. rewrite Ek. unfold conv2d. cbn [fst snd Z.leb andb check Z.to_nat].
    unfold conv2d_mode. rewrite S. cbn [shape ones fill_with tab fst snd]. rewrite !gen_out_len by auto.
    assert (E : ((0 <? 1) && (1 =? 1 * 1) && (1 mod 1 =? 0) && (0 <? 1))%nat = true) by reflexivity. rewrite E. clear E.
    cbn [pad_ok andb check]. replace ((0 <=? 0)%Z && (0 <=? 0)%Z) with true by reflexivity. cbn [check]. f_equal.
    apply tab4_ext. intros n o y0 x0 Hn Ho Hy Hx. assert (o = 0) by lia. subst o.
    rewrite <- (bsum_1 (fun _ => bsum k (fun u => bsum k (fun v => gt a [n; 0; y0 * k + u; x0 * k + v])))).
    apply bsum_ext. intros z Hz. assert (z = 0) by lia. subst z.
    apply bsum_ext. intros u Hu. apply bsum_ext. intros v Hv.
    assert (G : forall q n i, q < n / k -> i < k -> q * k + i < n).
    { intros q m i Hq Hi. pose proof (Nat.mul_div_le m k ltac:(lia)). nia. }
    unfold pget, pad_src. cbn [Nat.leb andb]. rewrite !Nat.add_0_r, !Nat.mul_1_r, !Nat.sub_0_r.
    pose proof (G y0 H u Hy Hu). pose proof (G x0 W v Hx Hv).
    destruct (Nat.ltb_spec (y0 * k + u) H); [|lia]. destruct (Nat.ltb_spec (x0 * k + v) W); [|lia].
    unfold ones. rewrite get_fill by (cbn; auto). replace (0 / (1 / 1)) with 0 by reflexivity. ring.
  Qed.
  Lemma gen_conv_0 (a : T) N H W : k = 0 -> shape a = [N; 1; H; W] -> exists e, up_conv sn sd a = Raise e.
  Proof.
    intros E S. unfold up_conv. rewrite Ek, E. unfold conv2d. cbn [fst snd Z.leb andb check Z.to_nat].
    unfold conv2d_mode. rewrite S. cbn [shape ones fill_with tab fst snd]. unfold check.
    repeat match goal with |- context [if ?c then _ else _] => destruct c; [|eexists; reflexivity] end.
    cbn. eexists. reflexivity.
  Qed.

  Variables (c h w H W b : nat) (x y : T).
  Hypothesis (Hc : 0 < c) (Hh : 0 < h) (Hw : 0 < w) (Hb : 0 < b).
  Hypothesis (Wx : wf x) (Sx : shape x = [b; c; h; w]) (Sy : shape y = [b; c; H; W]).
  Hypothesis (LH : h * k <= H) (LW : w * k <= W).
  Let D1 := c * H * W.
  Let D0 := c * h * w.
  Definition fits : Prop := 0 < k /\ H / k = h /\ W / k = w.

  Lemma block_lt q n i : q < n / k -> i < k -> q * k + i < n.
  Proof. intros Hq Hi. pose proof (Nat.mul_div_le n k ltac:(lia)). nia. Qed.
  Lemma fits_numel N : 0 < N -> 0 < k -> N * (H / k) * (W / k) = N * h * w -> fits.
  Proof.
    intros HN Hk E. assert (h <= H / k) by (apply Nat.div_le_lower_bound; lia). assert (w <= W / k) by (apply Nat.div_le_lower_bound; lia).
    repeat split; auto; apply Nat.le_antisymm; auto; apply Nat.nlt_ge; intros L.
    - assert (N * h * w < N * (H / k) * (W / k)); [|lia]. apply Nat.lt_le_trans with (N * (H / k) * w); nia.
    - assert (N * h * w < N * (H / k) * (W / k)); [|lia]. apply Nat.lt_le_trans with (N * h * (W / k)); [|nia].
      apply Nat.mul_lt_mono_pos_l; [nia|auto].
  Qed.
  (** mjp sums over the k x k blocks *)
  Definition block_sum (r : nat) (M : T) : T := tab3 b r D0 (fun q a j =>
    bsum k (fun u => bsum k (fun v => gt M [q; a; chw H W (j / (h * w)) (j mod (h * w) / w * k + u) (j mod w * k + v)]))).
  Lemma gen_mjp_some r M : fits -> wf M -> shape M = [b; r; D1] -> up_mjp_some sn sd x y M = Ok (block_sum r M).
  Proof.
    intros (Hk & EH & EW) WM SM. unfold up_mjp_some, unpack4. rewrite Sx, Sy. cbn [bind].
    rewrite Nat.eqb_refl. cbn [check]. unfold size. rewrite SM. cbn [nth_error bind]. fold D1.
    rewrite !Nat.eqb_refl. cbn [andb check].
    rewrite reshape_ok by (rewrite SM; unfold D1; numels; ring). cbn [bind].
    assert (k <= H) by nia. assert (k <= W) by nia.
    rewrite (gen_conv _ (b * r * c) H W) by auto. cbn [bind]. rewrite EH, EW.
    rewrite reshape_ok by (cbn [shape tab4 tab]; numels; ring). f_equal.
    apply (tab3_eq n0); [|reflexivity|].
    { apply wf_mkT_reshape; [apply wf_tab|cbn [shape tab4 tab]; unfold D0; numels; ring]. }
    intros q a j Hq Ha Hj. destruct (chw_ex c h w j Hj) as (c0 & y0 & x0 & Hc0 & Hy0 & Hx0 & ->).
    rewrite (get_mkT n0 _ _ _ [(q * r + a) * c + c0; 0; y0; x0]) by (cbn [shape tab4 tab ravel]; unfold chw, D0; numels; ring).
    rewrite get_tab4 by (auto; assert (q * r + a < b * r) by nia; nia).
    rewrite chw_div, chw_divmod, chw_mod by auto.
    apply bsum_ext. intros u Hu. apply bsum_ext. intros v' Hv'.
    apply get_mkT. rewrite SM. cbn [ravel]. unfold chw, D1. numels. ring.
  Qed.
  Lemma reshape_bad s (t : T) : numel s <> numel (shape t) -> exists e, reshape s t = Raise e.
  Proof. intros N. unfold reshape. apply Nat.eqb_neq in N. rewrite N. eexists. reflexivity. Qed.
  Lemma gen_mjp_raise r M : ~ fits -> 0 < r -> wf M -> shape M = [b; r; D1] -> exists e, up_mjp_some sn sd x y M = Raise e.
  Proof.
    intros NF Hr WM SM. unfold up_mjp_some, unpack4. rewrite Sx, Sy. cbn [bind].
    rewrite Nat.eqb_refl. cbn [check]. unfold size. rewrite SM. cbn [nth_error bind]. fold D1.
    rewrite !Nat.eqb_refl. cbn [andb check].
    rewrite reshape_ok by (rewrite SM; unfold D1; numels; ring). cbn [bind].
    destruct (Nat.eq_dec k 0) as [Z|P].
    { destruct (gen_conv_0 (mkT [b * r * c; 1; H; W] (data M)) (b * r * c) H W Z eq_refl) as [e E]. rewrite E. eexists. reflexivity. }
    assert (k <= H) by nia. assert (k <= W) by nia.
    rewrite (gen_conv _ (b * r * c) H W) by (auto; lia). cbn [bind]. apply reshape_bad.
    cbn [shape tab4 tab]. numels. intros E. apply NF, (fits_numel (b * r * c)); [repeat apply Nat.mul_pos_pos; auto|lia|].
    revert E. set (A := H / k). set (B := W / k). clearbody A B. intros E. lia.
  Qed.
  Lemma gen_jac : fits -> let J := block_sum D1 (dense b D1 D1 (fun _ i j => delta i j)) in
    up_jacobian sn sd x (Some y) Input = Ok (Some J) /\
    forall q o i j o' i1 j1, q < b -> o < c -> i < H -> j < W -> o' < c -> i1 < h -> j1 < w ->
      entry J q (chw H W o i j) (chw h w o' i1 j1) = if (o =? o') && (i / k =? i1) && (j / k =? j1) then n1 else n0.
  Proof.
    intros F J. pose proof F as (Hk & EH & EW). unfold up_jacobian. cbn [up_val bind]. unfold unpack4. rewrite Sx, Sy. cbn [bind].
    rewrite Nat.eqb_refl. cbn [check]. rewrite ones_embed by auto. cbn [bind]. fold D1.
    rewrite gen_mjp_some with (r := D1) by (auto; apply wf_tab). cbn [some bind]. split; [reflexivity|].
    intros q o i j o' i1 j1 Hq Ho Hi Hj Ho' Hi1 Hj1. unfold entry, J, block_sum. rewrite get_tab3 by (auto; now apply chw_lt).
    rewrite chw_div, chw_divmod, chw_mod by auto.
    assert (B1 : forall u, u < k -> i1 * k + u < H) by (intros; apply block_lt; lia).
    assert (B2 : forall u, u < k -> j1 * k + u < W) by (intros; apply block_lt; lia).
    rewrite (bsum_ext k _ (fun u => bsum k (fun v => delta (chw H W o i j) (chw H W o' (i1 * k + u) (j1 * k + v))))).
    2:{ intros u Hu. apply bsum_ext. intros v Hv. unfold dense. rewrite get_tab3; auto; unfold D1; apply chw_lt; auto. }
    assert (NZ : o <> o' \/ i / k <> i1 \/ j / k <> j1 -> forall u v, u < k -> v < k -> delta (chw H W o i j) (chw H W o' (i1 * k + u) (j1 * k + v)) = @n0 K _).
    { intros N u v Hu Hv. apply delta_neq. intros E. apply LeafUpsample.chw_inj in E as (E1 & E2 & E3); auto. subst i j.
      destruct (divmod_flat k i1 u Hu) as [E4 _]. destruct (divmod_flat k j1 v Hv) as [E5 _]. intuition. }
    destruct (Nat.eqb_spec o o') as [<-|No]; [destruct (Nat.eqb_spec (i / k) i1) as [Ei|Ni]; [destruct (Nat.eqb_spec (j / k) j1) as [Ej|Nj]|]|]; cbn [andb].
    2,3,4: apply bsum_0; intros u Hu; apply bsum_0; intros v Hv; apply NZ; auto.
    pose proof (Nat.mod_upper_bound i k ltac:(lia)) as Mi. pose proof (Nat.mod_upper_bound j k ltac:(lia)) as Mj.
    assert (Ei' : i = i1 * k + i mod k) by (rewrite <- Ei, Nat.mul_comm; apply Nat.div_mod; lia).
    assert (Ej' : j = j1 * k + j mod k) by (rewrite <- Ej, Nat.mul_comm; apply Nat.div_mod; lia).
    rewrite (bsum_single k (i mod k)); auto.
    2:{ intros u Hu N. apply bsum_0. intros v Hv. apply delta_neq. intros E. apply LeafUpsample.chw_inj in E as (_ & E2 & _); auto. lia. }
    rewrite (bsum_single k (j mod k)); auto.
    2:{ intros v Hv N. apply delta_neq. intros E. apply LeafUpsample.chw_inj in E as (_ & _ & E2); auto. lia. }
    rewrite <- Ei', <- Ej'. apply delta_refl.
  Qed.
  Lemma gen_jac_raise : ~ fits -> 0 < H -> 0 < W -> exists e, up_jacobian sn sd x (Some y) Input = Raise e.
  Proof.
    intros F PH PW. unfold up_jacobian. cbn [up_val bind]. unfold unpack4. rewrite Sx, Sy. cbn [bind].
    rewrite Nat.eqb_refl. cbn [check]. rewrite ones_embed by auto. cbn [bind]. fold D1.
    destruct (gen_mjp_raise D1 (dense b D1 D1 (fun _ i j => delta i j)) F) as [e E]; [unfold D1; repeat apply Nat.mul_pos_pos; auto|apply wf_tab|reflexivity|].
    rewrite E. eexists. reflexivity.
  Qed.
  Lemma block_at q r a M o i1 j1 : q < b -> a < r -> o < c -> i1 < h -> j1 < w ->
    gt (block_sum r M) [q; a; chw h w o i1 j1] = bsum k (fun u => bsum k (fun v => gt M [q; a; chw H W o (i1 * k + u) (j1 * k + v)])).
  Proof. intros. unfold block_sum. rewrite get_tab3 by (auto; now apply chw_lt). now rewrite chw_div, chw_divmod, chw_mod by auto. Qed.
  Lemma gen_MJ r M : fits -> MJ b r D1 D0 (entry (block_sum D1 (dense b D1 D1 (fun _ i j => delta i j)))) M = block_sum r M.
  Proof.
    intros (Hk & EH & EW). apply tab3_ext. intros q a j Hq Ha Hj. destruct (chw_ex c h w j Hj) as (o & i1 & j1 & Ho & Hi1 & Hj1 & ->).
    assert (B1 : forall u, u < k -> i1 * k + u < H) by (intros; apply block_lt; lia).
    assert (B2 : forall u, u < k -> j1 * k + u < W) by (intros; apply block_lt; lia).
    rewrite chw_div, chw_divmod, chw_mod by auto.
    rewrite (bsum_ext D1 _ (fun i => bsum k (fun u => bsum k (fun v => nmul (delta (chw H W o (i1 * k + u) (j1 * k + v)) i) (gt M [q; a; i]))))).
    2:{ intros i Hi. unfold entry. rewrite block_at by auto. rewrite <- bsum_mul_l. apply bsum_ext. intros u Hu. rewrite <- bsum_mul_l.
        apply bsum_ext. intros v Hv. unfold dense. rewrite get_tab3 by (auto; unfold D1; apply chw_lt; auto).
        unfold delta. rewrite Nat.eqb_sym. destruct Nat.eqb; ring. }
    rewrite bsum_swap. apply bsum_ext. intros u Hu. rewrite bsum_swap. apply bsum_ext. intros v Hv.
    apply (bsum_delta_l D1 (chw H W o (i1 * k + u) (j1 * k + v)) (fun i => gt M [q; a; i])). unfold D1. apply chw_lt; auto.
  Qed.
  Lemma gen_vjp v : fits -> wf v -> shape v = [b; D1] ->
    up_vjp sn sd x (Some y) v Input = Ok (Some (vJ b D1 D0 (entry (block_sum D1 (dense b D1 D1 (fun _ i j => delta i j)))) v)).
  Proof.
    intros F Wv Sv. pose proof F as (Hk & EH & EW). unfold up_vjp. cbn [up_val bind]. unfold unpack4. rewrite Sx, Sy. cbn [bind].
    rewrite Nat.eqb_refl. cbn [check]. rewrite Sv. fold D1. rewrite shape_eqb_refl. cbn [check].
    rewrite reshape_ok by (rewrite Sv; unfold D1; numels; ring). cbn [bind].
    assert (k <= H) by nia. assert (k <= W) by nia.
    rewrite (gen_conv _ (b * c) H W) by auto. cbn [bind]. rewrite EH, EW.
    rewrite reshape_ok by (cbn [shape tab4 tab]; numels; ring). cbn [some bind]. do 2 f_equal.
    set (M := mkT [b; 1; D1] (data v)). pose proof (gen_MJ 1 M F) as E.
    apply (tab2_eq n0); [|reflexivity|].
    { apply wf_mkT_reshape; [apply wf_tab|cbn [shape tab4 tab]; unfold D0; numels; ring]. }
    intros q j Hq Hj. apply (f_equal (fun t => gt t [q; 0; j])) in E. unfold MJ in E at 1. rewrite get_tab3 in E by (auto; lia).
    etransitivity; [|etransitivity; [symmetry; exact E|]].
    2:{ apply bsum_ext. intros i Hi. f_equal. unfold M. apply get_mkT. rewrite Sv. cbn [ravel]. numels. ring. }
    destruct (chw_ex c h w j Hj) as (o & i1 & j1 & Ho & Hi1 & Hj1 & ->). rewrite block_at by (auto; lia).
    rewrite (get_mkT n0 _ _ _ [q * c + o; 0; i1; j1]) by (cbn [shape tab4 tab ravel]; unfold chw, D0; numels; ring).
    rewrite get_tab4 by (auto; nia). apply bsum_ext. intros u Hu. apply bsum_ext. intros u' Hu'.
    unfold M, get. cbn [shape data ravel]. f_equal. unfold chw, D1. numels. ring.
  Qed.
  Lemma gen_vjp_raise v : ~ fits -> wf v -> shape v = [b; D1] -> exists e, up_vjp sn sd x (Some y) v Input = Raise e.
  Proof.
    intros NF Wv Sv. unfold up_vjp. cbn [up_val bind]. unfold unpack4. rewrite Sx, Sy. cbn [bind].
    rewrite Nat.eqb_refl. cbn [check]. rewrite Sv. fold D1. rewrite shape_eqb_refl. cbn [check].
    rewrite reshape_ok by (rewrite Sv; unfold D1; numels; ring). cbn [bind].
    destruct (Nat.eq_dec k 0) as [Z|P].
    { destruct (gen_conv_0 (mkT [b * c; 1; H; W] (data v)) (b * c) H W Z eq_refl) as [e E]. rewrite E. eexists. reflexivity. }
    assert (k <= H) by nia. assert (k <= W) by nia.
    rewrite (gen_conv _ (b * c) H W) by (auto; lia). cbn [bind].
    destruct (reshape_bad [b; c * h * w] (tab4 (b * c) 1 (H / k) (W / k) (fun n _ y0 x0 : nat => bsum k (fun u => bsum k (fun v0 => gt (mkT [b * c; 1; H; W] (data v)) [n; 0; y0 * k + u; x0 * k + v0]))))) as [e E].
    { cbn [shape tab4 tab]. numels. intros E. apply NF, (fits_numel (b * c)); [repeat apply Nat.mul_pos_pos; auto|lia|].
      revert E. set (A := H / k). set (B := W / k). clearbody A B. intros E. lia. }
    rewrite E. eexists. reflexivity.
  Qed.
  Lemma gen_sum q (f : nat -> K) o i1 j1 : fits -> q < b -> o < c -> i1 < h -> j1 < w ->
    bsum D1 (fun i => nmul (f i) (entry (block_sum D1 (dense b D1 D1 (fun _ i j => delta i j))) q i (chw h w o i1 j1))) =
    bsum k (fun u => bsum k (fun v => f (chw H W o (i1 * k + u) (j1 * k + v)))).
  Proof.
    intros F Hq Ho Hi1 Hj1. pose proof F as (Hk & _).
    pose proof (gen_MJ 1 (tab3 b 1 D1 (fun _ _ i => f i)) F) as E. apply (f_equal (fun t => gt t [q; 0; chw h w o i1 j1])) in E.
    unfold MJ in E at 1. rewrite get_tab3 in E by (auto; unfold D0; apply chw_lt; auto). rewrite block_at in E by auto.
    etransitivity; [|etransitivity; [exact E|]].
    - apply bsum_ext. intros i Hi. now rewrite get_tab3 by auto.
    - destruct F as (_ & EH & EW). apply bsum_ext. intros u Hu. apply bsum_ext. intros v Hv.
      rewrite get_tab3; auto. unfold D1. apply chw_lt; auto; apply block_lt; lia.
  Qed.
  Let JJ : nat -> nat -> nat -> K := entry (block_sum D1 (dense b D1 D1 (fun _ i j => delta i j))).
  Lemma gen_full M : fits -> wf M -> shape M = [b; D1; D1] -> up_jTmjp_full sn sd x y M = Ok (pull b D1 D0 JJ false false M).
  Proof.
    intros F Wv Sv. pose proof F as (Hk & EH & EW). assert (kH : k <= H) by nia. assert (kW : k <= W) by nia.
    unfold up_jTmjp_full. unfold unpack4. rewrite Sx, Sy. cbn [bind].
    rewrite reshape_ok by (rewrite Sv; unfold D1; numels; ring). cbn [bind].
    set (t1 := mkT [b; c; H * W; c; H * W] (data M)).
    assert (E : forall A (d : A) (t : tensor A) n1 n2 n3 n4 n5, shape t = [n1; n2; n3; n4; n5] ->
       movedim d [2%Z] [3%Z] t = tab [n1; n2; n4; n3; n5] (fun i => get d t [i_ 0 i; i_ 1 i; i_ 3 i; i_ 2 i; i_ 4 i])).
    { intros A d t m1 m2 m3 m4 m5 S. unfold movedim, permute, rank. rewrite S. reflexivity. }
    assert (E3 : forall (t : T) n1 n2 n3, shape t = [n1; n2; n3] ->
       movedim n0 [-1]%Z [-2]%Z t = tab3 n1 n3 n2 (fun i j k => gt t [i; k; j])).
    { intros t m1 m2 m3 S. unfold movedim, permute, rank. rewrite S. reflexivity. }
    rewrite (E _ n0 t1 b c (H * W) c (H * W)) by reflexivity.
    match goal with |- context [tab [b; c; c; _; _] ?f] => set (t2 := tab [b; c; c; H * W; H * W] f) end.
    rewrite reshape_ok by (cbn [t2 shape tab]; numels; ring). cbn [bind].
    rewrite (gen_conv _ (b * c * c * H * W) H W) by auto. rewrite EH, EW. cbn [bind].
    match goal with |- context [tab4 _ 1 h w ?f] => set (t3 := tab4 (b * c * c * H * W) 1 h w f) end.
    rewrite reshape_ok by (cbn [t3 shape tab4 tab]; numels; ring). cbn [bind].
    rewrite (E3 _ (b * c * c) (H * W) (h * w)) by reflexivity.
    match goal with |- context [tab3 (b * c * c) ?a ?a' ?f] => set (t4 := tab3 (b * c * c) a a' f) end.
    rewrite reshape_ok by (cbn [t4 shape tab3 tab]; numels; ring). cbn [bind].
    rewrite (gen_conv _ (b * c * c * h * w) H W) by auto. rewrite EH, EW. cbn [bind].
    match goal with |- context [tab4 _ 1 h w ?f] => set (t5 := tab4 (b * c * c * h * w) 1 h w f) end.
    rewrite reshape_ok by (cbn [t5 shape tab4 tab]; numels; ring). cbn [bind].
    rewrite (E3 _ (b * c * c) (h * w) (h * w)) by reflexivity.
    match goal with |- context [tab3 (b * c * c) ?a ?a' ?f] => set (t6 := tab3 (b * c * c) a a' f) end.
    rewrite reshape_ok by (cbn [t6 shape tab3 tab]; numels; ring). cbn [bind].
    set (t7 := mkT [b; c; c; h * w; h * w] (data t6)).
    rewrite (E _ n0 t7 b c c (h * w) (h * w)) by reflexivity.
    match goal with |- context [tab [b; c; _; c; _] ?f] => set (t8 := tab [b; c; h * w; c; h * w] f) end.
    rewrite reshape_ok by (cbn [t8 shape tab]; numels; ring). f_equal.
    apply (tab3_eq n0); [|reflexivity|].
    { apply wf_mkT_reshape; [apply wf_tab|cbn [t8 shape tab]; unfold D0; numels; ring]. }
    intros q j l Hq Hj Hl.
    unfold pull_at. cbn [metric].
    destruct (chw_ex c h w j Hj) as (cj & yj & xj & Hcj & Hyj & Hxj & ->).
    destruct (chw_ex c h w l Hl) as (cl & yl & xl & Hcl & Hyl & Hxl & ->).
    transitivity (bsum k (fun u => bsum k (fun v => bsum k (fun u' => bsum k (fun v' =>
      gt M [q; chw H W cj (yj * k + u) (xj * k + v); chw H W cl (yl * k + u') (xl * k + v')]))))).
    2:{ rewrite <- (gen_sum q (fun i => bsum k (fun u' => bsum k (fun v' => gt M [q; i; chw H W cl (yl * k + u') (xl * k + v')]))) cj yj xj) by auto.
        apply bsum_ext. intros i Hi. rewrite <- (gen_sum q (fun k0 => gt M [q; i; k0]) cl yl xl) by auto. rewrite <- bsum_mul_r.
        apply bsum_ext. intros a Ha. unfold JJ. ring. }
    (* evaluate the left hand side *)
    assert (Hyxj : yj * w + xj < h * w) by nia. assert (Hyxl : yl * w + xl < h * w) by nia.
    assert (Hqc : q * c + cj < b * c) by nia.
    assert (Hqcc : (q * c + cj) * c + cl < b * c * c) by nia.
    rewrite (get_mkT n0 _ t8 _ [q; cj; yj * w + xj; cl; yl * w + xl])
      by (cbn [shape t8 tab ravel]; unfold chw, D0; numels; ring).
    unfold t8. rewrite get_tab by (cbn; auto 9). cbn [nth].
    unfold t7. rewrite (get_mkT n0 _ t6 _ [(q * c + cj) * c + cl; yj * w + xj; yl * w + xl])
      by (cbn [shape t6 tab3 tab ravel]; numels; ring).
    unfold t6. rewrite get_tab3 by auto.
    rewrite (get_mkT n0 _ t5 _ [(((q * c + cj) * c + cl) * h + yl) * w + xl; 0; yj; xj])
      by (cbn [shape t5 tab4 tab ravel]; numels; ring).
    assert (H5 : ((q * c + cj) * c + cl) * h + yl < b * c * c * h) by nia.
    assert (H5' : (((q * c + cj) * c + cl) * h + yl) * w + xl < b * c * c * h * w) by nia.
    unfold t5. rewrite get_tab4 by auto. clear H5 H5'.
    apply bsum_ext. intros u Hu. apply bsum_ext. intros v Hv.
    assert (Hyu : yj * k + u < H) by (apply block_lt; lia). assert (Hxv : xj * k + v < W) by (apply block_lt; lia).
    assert (Hyx2 : (yj * k + u) * W + (xj * k + v) < H * W) by nia.
    rewrite (get_mkT n0 _ t4 _ [(q * c + cj) * c + cl; yl * w + xl; (yj * k + u) * W + (xj * k + v)])
      by (cbn [shape t4 tab3 tab ravel]; numels; ring).
    unfold t4. rewrite get_tab3 by auto.
    rewrite (get_mkT n0 _ t3 _ [(((q * c + cj) * c + cl) * H + (yj * k + u)) * W + (xj * k + v); 0; yl; xl])
      by (cbn [shape t3 tab4 tab ravel]; numels; ring).
    assert (H5 : ((q * c + cj) * c + cl) * H + (yj * k + u) < b * c * c * H) by nia.
    assert (H5' : (((q * c + cj) * c + cl) * H + (yj * k + u)) * W + (xj * k + v) < b * c * c * H * W) by nia.
    unfold t3. rewrite get_tab4 by auto. clear H5 H5'.
    apply bsum_ext. intros u' Hu'. apply bsum_ext. intros v' Hv'.
    assert (Hyu' : yl * k + u' < H) by (apply block_lt; lia). assert (Hxv' : xl * k + v' < W) by (apply block_lt; lia).
    assert (Hyx2' : (yl * k + u') * W + (xl * k + v') < H * W) by nia.
    rewrite (get_mkT n0 _ t2 _ [q; cj; cl; (yj * k + u) * W + (xj * k + v); (yl * k + u') * W + (xl * k + v')])
      by (cbn [shape t2 tab ravel]; numels; ring).
    unfold t2. rewrite get_tab by (cbn; auto 9). cbn [nth].
    unfold t1. apply get_mkT. rewrite Sv. cbn [ravel]. unfold chw, D1. numels. ring.
  Qed.

  Lemma gen_dd M : fits -> wf M -> shape M = [b; D1] -> up_jTmjp_dd sn sd x y M = Ok (pull b D1 D0 JJ true true M).
  Proof.
    intros F WM SM. pose proof (gen_vjp M F WM SM) as V. unfold up_vjp in V. cbn [up_val bind] in V. unfold unpack4 in V. rewrite Sx, Sy in V. cbn [bind] in V.
    rewrite Nat.eqb_refl in V. cbn [check] in V. rewrite SM in V. fold D1 in V. rewrite shape_eqb_refl in V. cbn [check] in V.
    unfold up_jTmjp_dd, unpack4. rewrite Sx, Sy. cbn [bind]. destruct (reshape [b * c; 1; H; W] M) as [t|]; [|discriminate]. cbn [bind] in *.
    destruct (up_conv sn sd t) as [t'|]; [|discriminate]. cbn [bind] in *. destruct (reshape [b; c * h * w] t') as [t''|]; [|discriminate].
    cbn [some bind] in V. apply (f_equal (fun r => match r with Ok (Some z) => z | _ => t'' end)) in V. cbn in V. rewrite V. f_equal.
    apply tab2_ext. intros q j Hq Hj. rewrite pull_at_diag. apply bsum_ext. intros i Hi.
    destruct (chw_ex c H W i Hi) as (o & i0 & j0 & Ho & Hi0 & Hj0 & ->). destruct (chw_ex c h w j Hj) as (o' & i1 & j1 & Ho' & Hi1 & Hj1 & ->).
    destruct (gen_jac F) as [_ E]. unfold JJ. rewrite E by auto. destruct (_ && _); ring.
  Qed.
  Lemma gen_dd_raise M : ~ fits -> wf M -> shape M = [b; D1] -> exists e, up_jTmjp_dd sn sd x y M = Raise e.
  Proof.
    intros F WM SM. destruct (gen_vjp_raise M F WM SM) as [e V]. unfold up_vjp in V. cbn [up_val bind] in V. unfold unpack4 in V. rewrite Sx, Sy in V. cbn [bind] in V.
    rewrite Nat.eqb_refl in V. cbn [check] in V. rewrite SM in V. fold D1 in V. rewrite shape_eqb_refl in V. cbn [check] in V.
    unfold up_jTmjp_dd, unpack4. rewrite Sx, Sy. cbn [bind]. destruct (reshape [b * c; 1; H; W] M) as [t|]; [|eexists; reflexivity]. cbn [bind] in *.
    destruct (up_conv sn sd t) as [t'|]; [|eexists; reflexivity]. cbn [bind] in *. destruct (reshape [b; c * h * w] t') as [t''|]; [discriminate|eexists; reflexivity].
  Qed.
  Lemma gen_full_raise M : ~ fits -> 0 < H -> 0 < W -> wf M -> shape M = [b; D1; D1] -> exists e, up_jTmjp_full sn sd x y M = Raise e.
  Proof.
    intros NF PH PW WM SM. unfold up_jTmjp_full, unpack4. rewrite Sx, Sy. cbn [bind].
    destruct reshape as [t1|]; [|eexists; reflexivity]. cbn [bind].
    destruct (reshape [b * c * c * H * W; 1; H; W] (movedim n0 [2%Z] [3%Z] t1)) as [t|] eqn:R; [|eexists; reflexivity]. cbn [bind].
    assert (St : shape t = [b * c * c * H * W; 1; H; W]).
    { unfold reshape in R. destruct Nat.eqb; [|discriminate]. now injection R as <-. }
    destruct (Nat.eq_dec k 0) as [Z|P].
    { destruct (gen_conv_0 t _ H W Z St) as [e E]. rewrite E. eexists. reflexivity. }
    assert (k <= H) by nia. assert (k <= W) by nia.
    rewrite (gen_conv t (b * c * c * H * W) H W) by (auto; lia). cbn [bind].
    match goal with |- context [reshape [b * c * c; H * W; h * w] ?z] => destruct (reshape_bad [b * c * c; H * W; h * w] z) as [e E] end.
    { cbn [shape tab4 tab]. numels. intros E. apply NF, (fits_numel (b * c * c * (H * W))); [repeat apply Nat.mul_pos_pos; auto|lia|].
      revert E. set (A := H / k). set (B := W / k). clearbody A B. intros E. lia. }
    rewrite E. eexists. reflexivity.
  Qed.
  Lemma gen_jTmjp fd td db M : fits -> wf M -> shape M = metric_shape fd b D1 ->
    up_jTmjp sn sd x (Some y) (Some M) Input fd td db = Ok (Some (pull b D1 D0 JJ fd td M)).
  Proof.
    intros F WM SM. unfold up_jTmjp. cbn [up_val bind]. unfold unpack4. rewrite Sx, Sy. cbn [bind].
    rewrite Nat.eqb_refl. cbn [check]. fold D1.
    assert (Q : shape_eqb (shape M) (if fd then [b; D1] else [b; D1; D1]) = true).
    { apply shape_eqb_true. destruct fd; auto. }
    rewrite Q. cbn [check]. destruct fd, td; cbn [metric_shape] in SM.
    - now rewrite gen_dd by auto.
    - rewrite diag_embed2 with (b := b) (n := D1) by auto. cbn [bind].
      rewrite gen_full by (auto; try apply wf_tab; reflexivity). now rewrite pull_embed.
    - rewrite gen_full by auto. cbn [bind]. now rewrite pull_diagonal.
    - now rewrite gen_full by auto.
  Qed.
  Lemma gen_jTmjp_raise fd td db M : ~ fits -> 0 < H -> 0 < W -> wf M -> shape M = metric_shape fd b D1 ->
    exists e, up_jTmjp sn sd x (Some y) (Some M) Input fd td db = Raise e.
  Proof.
    intros F PH PW WM SM. unfold up_jTmjp. cbn [up_val bind]. unfold unpack4. rewrite Sx, Sy. cbn [bind].
    rewrite Nat.eqb_refl. cbn [check]. fold D1.
    assert (Q : shape_eqb (shape M) (if fd then [b; D1] else [b; D1; D1]) = true).
    { apply shape_eqb_true. destruct fd; auto. }
    rewrite Q. cbn [check]. destruct fd, td; cbn [metric_shape] in SM.
    - destruct (gen_dd_raise M F WM SM) as [e E]. rewrite E. eexists. reflexivity.
    - rewrite diag_embed2 with (b := b) (n := D1) by auto. cbn [bind].
      match goal with |- context [up_jTmjp_full sn sd x y ?z] => destruct (gen_full_raise z F PH PW) as [e E]; [apply wf_tab|reflexivity|] end.
      rewrite E. eexists. reflexivity.
    - destruct (gen_full_raise M F PH PW WM SM) as [e E]. rewrite E. eexists. reflexivity.
    - destruct (gen_full_raise M F PH PW WM SM) as [e E]. rewrite E. eexists. reflexivity.
  Qed.
End Gen.

(** the positions read by the nearest mode *)
Definition near (sn sd n y i : nat) : R := if Nat.min (y * sd / sn) (n - 1) =? i then 1%R else 0%R.
Lemma near_sum sn sd n y g : 0 < n -> bsum n (fun i => near sn sd n y i * g i)%R = g (Nat.min (y * sd / sn) (n - 1)).
Proof.
  intros Hn. rewrite <- (bsumR_delta n (Nat.min (y * sd / sn) (n - 1)) g) by lia. apply bsum_ext. intros i Hi. unfold near, delta. reflexivity.
Qed.

Lemma fractional_exact sn sd c h w b (x : TR) (s : st R) val :
  0 < sd -> sn mod sd <> 0 -> 0 < c -> 0 < h -> 0 < w -> 0 < b -> wf x -> shape x = [b; c; h; w] ->
  let l := Leaf (Upsample sn sd) in let k := sn / sd in let h2 := h * sn / sd in let w2 := w * sn / sd in
  let m := c * h2 * w2 in let n := c * h * w in
  val_ok l x val ->
  (0 < h2 -> 0 < w2 -> exists y, fwd l x = Ok y /\ shape y = [b; c; h2; w2]) /\
  (0 < k -> h2 / k = h -> w2 / k = w ->
     exists J, snd (jacobian l s x val Input) = Ok (Some J) /\ wf J /\ shape J = [b; m; n] /\
       (derivative_at (fwd l) x [c; h2; w2] J <-> h = 1 /\ w = 1) /\
       (forall v, wf v -> shape v = [b; m] -> snd (vjp l s x val v Input) = Ok (Some (vJ b m n (entry J) v))) /\
       (forall r M, wf M -> shape M = [b; r; m] -> snd (mjp l s x val (Some M) Input) = Ok (Some (MJ b r m n (entry J) M))) /\
       (forall fd td db M, wf M -> shape M = metric_shape fd b m ->
          snd (jTmjp l s x val (VT M) Input fd td db) = Ok (VT (pull b m n (entry J) fd td M)))) /\
  (k = 0 \/ h2 / k <> h \/ w2 / k <> w ->
     raises (jacobian l s x val Input) /\
     (forall v, wf v -> shape v = [b; m] -> raises (vjp l s x val v Input)) /\
     (forall r M, 0 < r -> wf M -> shape M = [b; r; m] -> raises (mjp l s x val (Some M) Input)) /\
     (forall fd td db M, wf M -> shape M = metric_shape fd b m -> raises (jTmjp l s x val (VT M) Input fd td db))).
Proof.
  intros Hsd Hm Hc Hh Hw Hb Wx Sx l k h2 w2 m n Hval.
  assert (Psn : 0 < sn) by (destruct sn; [exfalso; apply Hm, Nat.mod_0_l; lia|lia]).
  assert (Lk : forall a, a * k <= a * sn / sd).
  { intros a. apply Nat.div_le_lower_bound; [lia|]. unfold k. pose proof (Nat.mul_div_le sn sd ltac:(lia)). nia. }
  assert (Fw : forall t, shape t = [b; c; h; w] -> 0 < h2 -> 0 < w2 -> fwd l t = Ok (tab4 b c h2 w2 (fun q o i j =>
     gt t [q; o; Nat.min (i * sd / sn) (h - 1); Nat.min (j * sd / sn) (w - 1)]))).
  { intros t St P1 P2. unfold fwd, l. cbn [forward snd leaf_forward]. unfold up_forward, upsample_nearest. rewrite St. fold h2 w2.
    replace ((0 <? sn) && (0 <? sd) && (0 <? h2) && (0 <? w2)) with true
      by (symmetry; repeat (apply andb_true_intro; split); now apply Nat.ltb_lt). reflexivity. }
  assert (Fz : ~ (0 < h2 /\ 0 < w2) -> exists e, fwd l x = Raise e).
  { intros N. unfold fwd, l. cbn [forward snd leaf_forward]. unfold up_forward, upsample_nearest. rewrite Sx. fold h2 w2.
    destruct ((0 <? sn) && (0 <? sd) && (0 <? h2) && (0 <? w2)) eqn:E; [|eexists; reflexivity].
    apply andb_prop in E as [E E2]. apply andb_prop in E as [_ E1]. apply Nat.ltb_lt in E1, E2. tauto. }
  assert (Vz : ~ (0 < h2 /\ 0 < w2) -> exists e, up_val sn sd x val = Raise e).
  { intros N. destruct (Fz N) as [e E]. destruct Hval as [->|(y & E' & _)]; [|congruence]. exists e. exact E. }
  assert (Vo : 0 < h2 -> 0 < w2 -> exists y, up_val sn sd x val = Ok y /\ shape y = [b; c; h2; w2]).
  { intros P1 P2. pose proof (Fw x Sx P1 P2) as E. destruct Hval as [->|(y & E' & ->)]; cbn [up_val].
    - eexists. split; [exact E|reflexivity].
    - exists y. split; [reflexivity|]. rewrite E in E'. injection E' as <-. reflexivity. }
  split; [intros P1 P2; eexists; split; [now apply Fw|reflexivity]|].
  split.
  - intros Pk E1 E2. assert (L1 : h * k <= h2) by exact (Lk h). assert (L2 : w * k <= w2) by exact (Lk w).
    assert (P1 : 0 < h2) by (clearbody h2 k; nia). assert (P2 : 0 < w2) by (clearbody w2 k; nia).
    destruct (Vo P1 P2) as (y & Vy & Sy). assert (F : fits k h w h2 w2) by (repeat split; auto).
    destruct (gen_jac (K := R) sn sd k eq_refl c h w h2 w2 b x y Hc Hh Hw Hb Sx Sy (Lk h) (Lk w) F) as (J1 & J2).
    match type of J1 with _ = Ok (Some ?Z) => set (JJ := Z) in *; assert (WJ : wf JJ) by apply wf_tab; assert (SJ : shape JJ = [b; m; n]) by reflexivity; exists JJ end.
    split; [|split; [|split; [|split; [|split; [|split]]]]].
    + unfold l. cbn [jacobian snd leaf_jacobian]. rewrite <- J1. unfold up_jacobian. rewrite Vy. reflexivity.
    + exact WJ.
    + exact SJ.
    + rewrite (sep_derivative c h w h2 w2 (near sn sd h) (near sn sd w) (fwd l) b x JJ Wx Sx WJ SJ).
      2:{ intros t Wt St. eexists. split; [now apply Fw|]. split; [apply wf_tab|]. split; [reflexivity|]. intros q o i j Hq Ho Hi Hj.
          rewrite get_tab4 by auto.
          etransitivity; [|symmetry; exact (near_sum sn sd h i (fun i1 => bsum w (fun j1 => near sn sd w j j1 * gt t [q; o; i1; j1])%R) Hh)].
          cbv beta. now rewrite near_sum by auto. }
      assert (Pos : forall a, 1 < a -> a * sn / sd / k = a -> k < a * sn / sd).
      { intros a Ha E. pose proof (Nat.mul_div_le (a * sn / sd) k ltac:(lia)). rewrite E in H. nia. }
      assert (Sk : k * sd / sn = 0).
      { apply Nat.div_small. unfold k. pose proof (Nat.div_mod sn sd ltac:(lia)). nia. }
      split.
      * intros E. split.
        -- destruct (Nat.eq_dec h 1) as [|Nh]; [auto|exfalso]. pose proof (Pos h ltac:(lia) E1) as Hk2. fold h2 in Hk2.
           specialize (E 0 0 k 0 0 0 0 Hb Hc Hk2 P2 Hc Hh Hw). pose proof (eq_trans (eq_sym (J2 0 0 k 0 0 0 0 Hb Hc Hk2 P2 Hc Hh Hw)) E) as E0. clear E. rename E0 into E.
           rewrite Nat.div_same in E by lia. unfold near in E. rewrite Sk in E. cbn [Nat.eqb andb n0 Num_R] in E.
           rewrite Nat.mul_0_l, Nat.div_0_l, !Nat.min_0_l in E by lia. cbn [Nat.eqb] in E. lra.
        -- destruct (Nat.eq_dec w 1) as [|Nh]; [auto|exfalso]. pose proof (Pos w ltac:(lia) E2) as Hk2. fold w2 in Hk2.
           specialize (E 0 0 0 k 0 0 0 Hb Hc P1 Hk2 Hc Hh Hw). pose proof (eq_trans (eq_sym (J2 0 0 0 k 0 0 0 Hb Hc P1 Hk2 Hc Hh Hw)) E) as E0. clear E. rename E0 into E.
           rewrite Nat.div_same in E by lia. unfold near in E. rewrite Sk in E. rewrite Bool.andb_false_r in E. cbn [n0 Num_R] in E.
           rewrite Nat.mul_0_l, Nat.div_0_l, !Nat.min_0_l in E by lia. cbn [Nat.eqb] in E. lra.
      * intros [Q1 Q2] q o i j o' i1 j1 Hq Ho Hi Hj Ho' Hi1 Hj1.
        etransitivity; [exact (J2 q o i j o' i1 j1 Hq Ho Hi Hj Ho' Hi1 Hj1)|].
        assert (i1 = 0) by lia. assert (j1 = 0) by lia. subst i1 j1.
        assert (B : forall a i, a = 1 -> i < a * sn / sd -> i / k = 0).
        { intros a i0 -> Hi0. rewrite Nat.mul_1_l in Hi0. now apply Nat.div_small. }
        rewrite (B h i Q1 Hi), (B w j Q2 Hj). unfold near. rewrite Q1, Q2. cbn [Nat.sub]. rewrite !Nat.min_0_r. cbn [Nat.eqb n0 n1 Num_R].
        destruct (o =? o'); cbn [andb]; ring.
    + intros v Wv Sv. unfold l. cbn [vjp snd leaf_vjp]. pose proof (gen_vjp (K := R) sn sd k eq_refl c h w h2 w2 b x y Hc Hh Hw Hb Sx Sy (Lk h) (Lk w) v F Wv Sv) as E.
      unfold up_vjp in *. rewrite Vy. exact E.
    + intros r M WM SM. unfold l. cbn [mjp snd leaf_mjp]. unfold up_mjp. rewrite Vy. cbn [bind].
      rewrite (gen_mjp_some (K := R) sn sd k eq_refl c h w h2 w2 b x y Hc Hh Hw Hb Sx Sy (Lk h) (Lk w) r M F WM SM).
      cbn [some bind]. do 2 f_equal. symmetry. exact (gen_MJ (K := R) sn sd k eq_refl c h w h2 w2 b Hc Hh Hw Hb (Lk h) (Lk w) r M F).
    + intros fd td db M WM SM. unfold l. cbn [jTmjp snd leaf_jTmjp to_opt bind].
      pose proof (gen_jTmjp (K := R) sn sd k eq_refl c h w h2 w2 b x y Hc Hh Hw Hb Sx Sy (Lk h) (Lk w) fd td db M F WM SM) as E.
      unfold up_jTmjp in *. rewrite Vy. cbn [up_val bind] in *. rewrite E. reflexivity.
  - intros B. assert (NF : ~ fits k h w h2 w2) by (intros (Q1 & Q2 & Q3); destruct B as [B|[B|B]]; [lia|tauto|tauto]).
    unfold raises, l. cbn [jacobian vjp mjp snd leaf_jacobian leaf_vjp leaf_mjp jTmjp leaf_jTmjp to_opt bind].
    destruct (Nat.eq_dec h2 0) as [Z1|P1]; [|destruct (Nat.eq_dec w2 0) as [Z2|P2]].
    1,2: destruct Vz as [e E]; [lia|]; repeat split; intros; eexists; unfold up_jacobian, up_vjp, up_mjp, up_jTmjp; rewrite E; reflexivity.
    destruct (Vo ltac:(lia) ltac:(lia)) as (y & Vy & Sy). split; [|split; [|split]].
    + destruct (gen_jac_raise (K := R) sn sd k eq_refl c h w h2 w2 b x y Hc Hh Hw Hb Sx Sy (Lk h) (Lk w) NF ltac:(lia) ltac:(lia)) as [e E].
      exists e. rewrite <- E. unfold up_jacobian. rewrite Vy. reflexivity.
    + intros v Wv Sv. destruct (gen_vjp_raise (K := R) sn sd k eq_refl c h w h2 w2 b x y Hc Hh Hw Hb Sx Sy (Lk h) (Lk w) v NF Wv Sv) as [e E].
      exists e. rewrite <- E. unfold up_vjp. rewrite Vy. reflexivity.
    + intros r M Hr WM SM. destruct (gen_mjp_raise (K := R) sn sd k eq_refl c h w h2 w2 b x y Hc Hh Hw Hb Sx Sy (Lk h) (Lk w) r M NF Hr WM SM) as [e E].
      exists e. unfold up_mjp. rewrite Vy. cbn [bind]. rewrite E. reflexivity.
    + intros fd td db M WM SM.
      destruct (gen_jTmjp_raise (K := R) sn sd k eq_refl c h w h2 w2 b x y Hc Hh Hw Hb Sx Sy (Lk h) (Lk w) fd td db M NF ltac:(lia) ltac:(lia) WM SM) as [e E].
      exists e. unfold up_jTmjp in *. rewrite Vy. cbn [up_val bind] in *. rewrite E. reflexivity.
Qed.
