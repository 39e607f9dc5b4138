(** The Upsample layer satisfies the layer specifications (integer scale, nearest). *)
From Coq Require Import String Ascii List Arith ZArith Lia Bool.
From Verif Require Import Scalar Sums Tensor TensorLemmas EinsumLemmas Conv Abstract Simple LinearLayer ConvLayer PoolLayer
  Module Spec OpLemmas ReshapeLemmas Jac LeafSpec LeafSimple.
Import ListNotations.
Local Open Scope nat_scope.
Local Open Scope list_scope.

Lemma get_mkT {A} (d : A) s (t : tensor A) idx idx' : ravel s idx = ravel (shape t) idx' ->
  get d (mkT s (data t)) idx = get d t idx'.
Proof. intros E. unfold get. cbn [shape data]. now rewrite E. Qed.

(** flat index of (c, y, x) *)
Definition chw (h w c y x : nat) : nat := (c * h + y) * w + x.
Lemma chw_lt C h w c y x : c < C -> y < h -> x < w -> chw h w c y x < C * h * w.
Proof. unfold chw. intros. assert (c * h + y < C * h) by nia. nia. Qed.
Lemma chw_ex C h w i : i < C * h * w -> exists c y x, c < C /\ y < h /\ x < w /\ i = chw h w c y x.
Proof.
  intros Hi. destruct (divmod_lt i (C * h) w Hi) as (A & B & E).
  destruct (divmod_lt (i / w) C h A) as (A' & B' & E').
  exists (i / w / h), ((i / w) mod h), (i mod w). repeat split; auto. unfold chw. now rewrite <- E'.
Qed.
Lemma chw_mod h w c y x : x < w -> chw h w c y x mod w = x.
Proof. intros. unfold chw. rewrite Nat.add_comm, Nat.mod_add, Nat.mod_small; lia. Qed.
Lemma chw_div h w c y x : y < h -> x < w -> chw h w c y x / (h * w) = c.
Proof.
  intros. unfold chw. replace ((c * h + y) * w + x) with (y * w + x + c * (h * w)) by ring.
  rewrite Nat.div_add, Nat.div_small by nia. lia.
Qed.
Lemma chw_divmod h w c y x : y < h -> x < w -> chw h w c y x mod (h * w) / w = y.
Proof.
  intros. unfold chw. replace ((c * h + y) * w + x) with (y * w + x + c * (h * w)) by ring.
  rewrite Nat.mod_add by nia. rewrite Nat.mod_small by nia.
  rewrite Nat.add_comm, Nat.div_add, Nat.div_small by lia. lia.
Qed.
Lemma chw_inj h w c y x c' y' x' : y < h -> x < w -> y' < h -> x' < w ->
  chw h w c y x = chw h w c' y' x' -> c = c' /\ y = y' /\ x = x'.
Proof.
  intros Hy Hx Hy' Hx' E. repeat split.
  - rewrite <- (chw_div h w c y x), E by auto. now apply chw_div.
  - rewrite <- (chw_divmod h w c y x), E by auto. now apply chw_divmod.
  - rewrite <- (chw_mod h w c y x), E by auto. now apply chw_mod.
Qed.

Section Up.
  Context {K} `{CR : CRing K}.
  Add Ring Kring : (cring : ring_theory n0 n1 nadd nmul nsub nopp (@eq K)).
  Notation gt := (get (@n0 K _)).
  Notation T := (tensor K).

  Lemma get_fill (a : K) s idx : valid s idx -> gt (fill_with a s) idx = a.
  Proof. intros. unfold fill_with. now rewrite get_tab. Qed.
  Lemma bsum_chw C h w (f : nat -> K) :
    bsum (C * h * w) f = bsum C (fun c => bsum h (fun y => bsum w (fun x => f (chw h w c y x)))).
  Proof. rewrite bsum_prod, bsum_prod. reflexivity. Qed.

  Section U.
    Variables (sn sd k : nat) (c h w b : nat) (x y : T) (val : option T).
    Hypothesis (Hsd : 0 < sd) (Hk : sn = k * sd) (Hc : 0 < c) (Hh : 0 < h) (Hw : 0 < w) (Hkp : 0 < k) (Hb : 0 < b).
    Hypothesis (Wx : wf x) (Sx : shape x = [b; c; h; w]).

    Lemma up_k : iscale sn sd = k.
    Proof. unfold iscale. rewrite Hk. apply Nat.div_mul. lia. Qed.
    Lemma up_len n : n * sn / sd = n * k.
    Proof. rewrite Hk, Nat.mul_assoc. apply Nat.div_mul. lia. Qed.
    Lemma up_pos n a : a < n * k -> Nat.min (a * sd / sn) (n - 1) = a / k.
    Proof.
      intros Ha. rewrite Hk, Nat.div_mul_cancel_r by lia.
      assert (a / k < n) by (apply Nat.div_lt_upper_bound; lia). lia.
    Qed.
    Lemma up_fwd_ok : up_forward sn sd x = Ok (tab4 b c (h * k) (w * k) (fun q c0 y x0 => gt x [q; c0; y / k; x0 / k])).
    Proof.
      unfold up_forward, upsample_nearest. rewrite Sx, !up_len.
      assert (E : ((0 <? sn) && (0 <? sd) && (0 <? h * k) && (0 <? w * k))%nat = true).
      { rewrite Hk. repeat (apply andb_true_intro; split); apply Nat.ltb_lt; nia. }
      rewrite E. cbn [check]. f_equal. apply tab4_ext. intros q c0 y0 x0 Hq Hc0 Hy Hx.
      now rewrite !up_pos by auto.
    Qed.
    Hypothesis Fy : up_forward sn sd x = Ok y.
    Hypothesis V : val = None \/ val = Some y.
    Lemma up_y : shape y = [b; c; h * k; w * k].
    Proof. rewrite up_fwd_ok in Fy. injection Fy as <-. reflexivity. Qed.
    Lemma up_val_ok : up_val sn sd x val = Ok y.
    Proof. unfold up_val. destruct V as [-> | ->]; auto. Qed.

    Lemma up_out_len n : 0 < n -> out_len (n * k) k k 0 1 = Some n.
    Proof.
      intros Hn. unfold out_len.
      assert (E : ((0 <? k) && (0 <? k) && (0 <? 1) && (1 * (k - 1) + 1 <=? n * k + 2 * 0))%nat = true).
      { repeat (apply andb_true_intro; split); try (apply Nat.ltb_lt; lia). apply Nat.leb_le. nia. }
      rewrite E. f_equal. replace (n * k + 2 * 0 - (1 * (k - 1) + 1)) with ((n - 1) * k) by nia.
      rewrite Nat.div_mul by lia. lia.
    Qed.
    Lemma up_conv_ok (a : T) N : shape a = [N; 1; h * k; w * k] ->
      up_conv sn sd a = Ok (tab4 N 1 h w (fun n _ y0 x0 =>
        bsum k (fun u => bsum k (fun v => gt a [n; 0; y0 * k + u; x0 * k + v])))).
    Proof.
      intros S. unfold up_conv. rewrite up_k. unfold conv2d. cbn [fst snd Z.leb andb check Z.to_nat].
      unfold conv2d_mode. rewrite S. cbn [shape ones fill_with tab].
      cbn [fst snd].
      rewrite (up_out_len h), (up_out_len w) by auto.
      assert (E : ((0 <? 1) && (1 =? 1 * 1) && (1 mod 1 =? 0) && (0 <? 1))%nat = true) by reflexivity. rewrite E. clear E.
      cbn [pad_ok andb check]. replace ((0 <=? 0)%Z && (0 <=? 0)%Z) with true by reflexivity. cbn [check]. f_equal.
      apply tab4_ext. intros n o y0 x0 Hn Ho Hy Hx. assert (o = 0) by lia. subst o.
      rewrite <- (bsum_1 (fun _ => bsum k (fun u => bsum k (fun v => gt a [n; 0; y0 * k + u; x0 * k + v])))).
      apply bsum_ext. intros z Hz. assert (z = 0) by lia. subst z.
      apply bsum_ext. intros u Hu. apply bsum_ext. intros v Hv.
      unfold pget, pad_src. cbn [Nat.leb andb]. rewrite !Nat.add_0_r, !Nat.mul_1_r, !Nat.sub_0_r.
      destruct (Nat.ltb_spec (y0 * k + u) (h * k)); [|nia]. destruct (Nat.ltb_spec (x0 * k + v) (w * k)); [|nia].
      unfold ones. rewrite get_fill by (cbn; auto). replace (0 / (1 / 1)) with 0 by reflexivity. ring.
    Qed.

    (** the sum over the outputs that read input (c0, y0, x0) *)
    Definition up_i c0 y0 x0 u v := chw (h * k) (w * k) c0 (y0 * k + u) (x0 * k + v).
    Lemma up_src_chw c0 y0 x0 : y0 < h * k -> x0 < w * k ->
      up_src k h w (chw (h * k) (w * k) c0 y0 x0) = chw h w c0 (y0 / k) (x0 / k).
    Proof.
      intros Hy Hx. unfold up_src. rewrite chw_div, chw_divmod, chw_mod by auto. unfold chw. ring.
    Qed.
    Lemma up_sum (f : nat -> K) c0 y0 x0 : c0 < c -> y0 < h -> x0 < w ->
      bsum (c * (h * k) * (w * k)) (fun i => nmul (f i) (delta (up_src k h w i) (chw h w c0 y0 x0))) =
      bsum k (fun u => bsum k (fun v => f (up_i c0 y0 x0 u v))).
    Proof.
      intros Hc0 Hy Hx. rewrite bsum_chw.
      assert (DK : forall n i, i < n * k -> i / k < n) by (intros; apply Nat.div_lt_upper_bound; lia).
      rewrite (bsum_single c c0); auto.
      2:{ intros c' Hc' N. apply bsum_0. intros y' Hy'. apply bsum_0. intros x' Hx'.
          rewrite up_src_chw by auto. rewrite delta_neq; [ring|]. intros E.
          apply chw_inj in E as (E & _); auto. }
      rewrite bsum_prod. rewrite (bsum_single h y0); auto.
      2:{ intros a Ha N. apply bsum_0. intros u Hu. apply bsum_0. intros x' Hx'.
          assert (a * k + u < h * k) by nia.
          rewrite up_src_chw by auto. rewrite delta_neq; [ring|]. intros E.
          apply chw_inj in E as (_ & E & _); auto. destruct (divmod_flat k a u Hu) as [E1 _]. congruence. }
      apply bsum_ext. intros u Hu. assert (Hyu : y0 * k + u < h * k) by nia.
      rewrite bsum_prod. rewrite (bsum_single w x0); auto.
      2:{ intros a Ha N. apply bsum_0. intros v Hv. assert (a * k + v < w * k) by nia.
          rewrite up_src_chw by auto. rewrite delta_neq; [ring|]. intros E.
          apply chw_inj in E as (_ & _ & E); auto. destruct (divmod_flat k a v Hv) as [E1 _]. congruence. }
      apply bsum_ext. intros v Hv. assert (Hxv : x0 * k + v < w * k) by nia.
      rewrite up_src_chw by auto. destruct (divmod_flat k y0 u Hu) as [-> _]. destruct (divmod_flat k x0 v Hv) as [-> _].
      rewrite delta_refl. unfold up_i. ring.
    Qed.
    Let J : nat -> nat -> nat -> K := fun _ i j => delta (up_src k h w i) j.
    Let D1 := c * (h * k) * (w * k).
    Let D0 := c * h * w.

    Lemma up_vjp_in v : wf v -> shape v = [b; D1] -> up_vjp sn sd x val v Input = Ok (Some (vJ b D1 D0 J v)).
    Proof.
      intros Wv Sv. unfold up_vjp. rewrite up_val_ok. cbn [bind]. unfold unpack4. rewrite Sx, up_y. cbn [bind].
      rewrite Nat.eqb_refl. cbn [check]. rewrite Sv, shape_eqb_refl. cbn [check].
      rewrite reshape_ok by (rewrite Sv; unfold D1; numels; ring). cbn [bind].
      rewrite (up_conv_ok _ (b * c)) by reflexivity. cbn [bind].
      rewrite reshape_ok by (cbn [shape tab4 tab]; numels; ring). cbn [some bind]. do 2 f_equal.
      apply (tab2_eq n0); [|reflexivity|].
      { apply wf_mkT_reshape; [apply wf_tab|cbn [shape tab4 tab]; numels; ring]. }
      intros q j Hq Hj. destruct (chw_ex c h w j Hj) as (c0 & y0 & x0 & Hc0 & Hy0 & Hx0 & ->).
      rewrite (get_mkT n0 _ _ _ [q * c + c0; 0; y0; x0]) by (cbn [shape tab4 tab ravel]; unfold chw; numels; ring).
      rewrite get_tab4 by (auto; nia). unfold J. rewrite (up_sum (fun i => gt v [q; i])) by auto.
      apply bsum_ext. intros u Hu. apply bsum_ext. intros v' Hv'.
      apply get_mkT. rewrite Sv. cbn [ravel]. unfold up_i, chw, D1. numels. ring.
    Qed.
    Lemma up_mjp_some_ok r M : wf M -> shape M = [b; r; D1] -> up_mjp_some sn sd x y M = Ok (MJ b r D1 D0 J M).
    Proof.
      intros WM SM. unfold up_mjp_some. unfold unpack4. rewrite Sx, up_y. cbn [bind].
      rewrite Nat.eqb_refl. cbn [check]. unfold size. rewrite SM. cbn [nth_error bind]. fold D1.
      rewrite !Nat.eqb_refl. cbn [andb check].
      rewrite reshape_ok by (rewrite SM; unfold D1; numels; ring). cbn [bind].
      rewrite (up_conv_ok _ (b * r * c)) by reflexivity. cbn [bind].
      rewrite reshape_ok by (cbn [shape tab4 tab]; numels; ring). f_equal.
      apply (tab3_eq n0); [|reflexivity|].
      { apply wf_mkT_reshape; [apply wf_tab|cbn [shape tab4 tab]; numels; ring]. }
      intros q a j Hq Ha Hj. destruct (chw_ex c h w j Hj) as (c0 & y0 & x0 & Hc0 & Hy0 & Hx0 & ->).
      rewrite (get_mkT n0 _ _ _ [(q * r + a) * c + c0; 0; y0; x0]) by (cbn [shape tab4 tab ravel]; unfold chw; numels; ring).
      rewrite get_tab4 by (auto; assert (q * r + a < b * r) by nia; nia). unfold J.
      rewrite (up_sum (fun i => gt M [q; a; i])) by auto.
      apply bsum_ext. intros u Hu. apply bsum_ext. intros v' Hv'.
      apply get_mkT. rewrite SM. cbn [ravel]. unfold up_i, chw, D1. numels. ring.
    Qed.
    Lemma up_mjp_in r M : wf M -> shape M = [b; r; D1] ->
      up_mjp sn sd x val (Some M) Input = Ok (Some (MJ b r D1 D0 J M)).
    Proof.
      intros WM SM. unfold up_mjp. rewrite up_val_ok. cbn [bind]. now rewrite up_mjp_some_ok with (r := r).
    Qed.
    Lemma ones_embed n : diag_embed (@ones K _ [b; n]) = Ok (dense b n n (fun _ i j => delta i j)).
    Proof.
      rewrite diag_embed2 with (b := b) (n := n) by reflexivity. f_equal. apply tab3_ext. intros q i j Hq Hi Hj.
      unfold delta. destruct (Nat.eqb i j); auto. unfold ones, fill_with. rewrite get_tab; cbn; auto.
    Qed.
    Lemma up_jac_in : up_jacobian sn sd x val Input = Ok (Some (dense b D1 D0 J)).
    Proof.
      unfold up_jacobian. rewrite up_val_ok. cbn [bind]. unfold unpack4. rewrite Sx, up_y. cbn [bind].
      rewrite Nat.eqb_refl. cbn [check]. rewrite ones_embed. cbn [bind]. fold D1.
      rewrite up_mjp_some_ok with (r := D1) by (try apply wf_tab; reflexivity). cbn [some bind]. do 2 f_equal.
      apply tab3_ext. intros q i j Hq Hi Hj.
      rewrite (bsum_ext D1 _ (fun i0 => nmul (delta i i0) (J q i0 j))).
      - now rewrite bsum_delta_l.
      - intros i0 Hi0. unfold dense. now rewrite get_tab3.
    Qed.

    (** *** jTmjp *)
    Lemma up_dd M : wf M -> shape M = [b; D1] -> up_jTmjp_dd sn sd x y M = Ok (pull b D1 D0 J true true M).
    Proof.
      intros Wv Sv. unfold up_jTmjp_dd. unfold unpack4. rewrite Sx, up_y. cbn [bind].
      rewrite reshape_ok by (rewrite Sv; unfold D1; numels; ring). cbn [bind].
      rewrite (up_conv_ok _ (b * c)) by reflexivity. cbn [bind].
      rewrite reshape_ok by (cbn [shape tab4 tab]; numels; ring). f_equal.
      apply (tab2_eq n0); [|reflexivity|].
      { apply wf_mkT_reshape; [apply wf_tab|cbn [shape tab4 tab]; numels; ring]. }
      intros q j Hq Hj. rewrite pull_at_diag.
      rewrite (bsum_ext D1 _ (fun i => nmul (gt M [q; i]) (delta (up_src k h w i) j))).
      2:{ intros i Hi. unfold J, delta. destruct Nat.eqb; ring. }
      destruct (chw_ex c h w j Hj) as (c0 & y0 & x0 & Hc0 & Hy0 & Hx0 & ->).
      rewrite (get_mkT n0 _ _ _ [q * c + c0; 0; y0; x0]) by (cbn [shape tab4 tab ravel]; unfold chw; numels; ring).
      rewrite get_tab4 by (auto; nia). rewrite (up_sum (fun i => gt M [q; i])) by auto.
      apply bsum_ext. intros u Hu. apply bsum_ext. intros v' Hv'.
      apply get_mkT. rewrite Sv. cbn [ravel]. unfold up_i, chw, D1. numels. ring.
    Qed.
    Lemma up_full M : wf M -> shape M = [b; D1; D1] -> up_jTmjp_full sn sd x y M = Ok (pull b D1 D0 J false false M).
    Proof.
      intros Wv Sv. unfold up_jTmjp_full. unfold unpack4. rewrite Sx, up_y. cbn [bind].
      set (h2 := h * k) in *. set (w2 := w * k) in *.
      rewrite reshape_ok by (rewrite Sv; unfold D1; numels; ring). cbn [bind].
      set (t1 := mkT [b; c; h2 * w2; c; h2 * w2] (data M)).
      assert (E : forall A (d : A) (t : tensor A) n1 n2 n3 n4 n5, shape t = [n1; n2; n3; n4; n5] ->
         movedim d [2%Z] [3%Z] t = tab [n1; n2; n4; n3; n5] (fun i => get d t [i_ 0 i; i_ 1 i; i_ 3 i; i_ 2 i; i_ 4 i])).
      { intros A d t m1 m2 m3 m4 m5 S. unfold movedim, permute, rank. rewrite S. reflexivity. }
      assert (E3 : forall (t : T) n1 n2 n3, shape t = [n1; n2; n3] ->
         movedim n0 [-1]%Z [-2]%Z t = tab3 n1 n3 n2 (fun i j k => gt t [i; k; j])).
      { intros t m1 m2 m3 S. unfold movedim, permute, rank. rewrite S. reflexivity. }
      rewrite (E _ n0 t1 b c (h2 * w2) c (h2 * w2)) by reflexivity.
      match goal with |- context [tab [b; c; c; _; _] ?f] => set (t2 := tab [b; c; c; h2 * w2; h2 * w2] f) end.
      rewrite reshape_ok by (cbn [t2 shape tab]; numels; ring). cbn [bind].
      rewrite (up_conv_ok _ (b * c * c * h2 * w2)) by reflexivity. cbn [bind].
      match goal with |- context [tab4 _ 1 h w ?f] => set (t3 := tab4 (b * c * c * h2 * w2) 1 h w f) end.
      rewrite reshape_ok by (cbn [t3 shape tab4 tab]; numels; ring). cbn [bind].
      rewrite (E3 _ (b * c * c) (h2 * w2) (h * w)) by reflexivity.
      match goal with |- context [tab3 (b * c * c) ?a ?a' ?f] => set (t4 := tab3 (b * c * c) a a' f) end.
      rewrite reshape_ok by (cbn [t4 shape tab3 tab]; numels; ring). cbn [bind].
      rewrite (up_conv_ok _ (b * c * c * h * w)) by reflexivity. cbn [bind].
      match goal with |- context [tab4 _ 1 h w ?f] => set (t5 := tab4 (b * c * c * h * w) 1 h w f) end.
      rewrite reshape_ok by (cbn [t5 shape tab4 tab]; numels; ring). cbn [bind].
      rewrite (E3 _ (b * c * c) (h * w) (h * w)) by reflexivity.
      match goal with |- context [tab3 (b * c * c) ?a ?a' ?f] => set (t6 := tab3 (b * c * c) a a' f) end.
      rewrite reshape_ok by (cbn [t6 shape tab3 tab]; numels; ring). cbn [bind].
      set (t7 := mkT [b; c; c; h * w; h * w] (data t6)).
      rewrite (E _ n0 t7 b c c (h * w) (h * w)) by reflexivity.
      match goal with |- context [tab [b; c; _; c; _] ?f] => set (t8 := tab [b; c; h * w; c; h * w] f) end.
      rewrite reshape_ok by (cbn [t8 shape tab]; numels; ring). f_equal.
      apply (tab3_eq n0); [|reflexivity|].
      { apply wf_mkT_reshape; [apply wf_tab|cbn [t8 shape tab]; unfold D0; numels; ring]. }
      intros q j l Hq Hj Hl.
      unfold pull_at. cbn [metric].
      destruct (chw_ex c h w j Hj) as (cj & yj & xj & Hcj & Hyj & Hxj & ->).
      destruct (chw_ex c h w l Hl) as (cl & yl & xl & Hcl & Hyl & Hxl & ->).
      transitivity (bsum D1 (fun i => nmul (bsum k (fun u => bsum k (fun v => gt M [q; i; up_i cl yl xl u v])))
                     (delta (up_src k h w i) (chw h w cj yj xj)))).
      2:{ apply bsum_ext. intros i Hi. rewrite <- (up_sum (fun k0 => gt M [q; i; k0])) by auto.
          rewrite <- bsum_mul_r. apply bsum_ext. intros a Ha. unfold J. ring. }
      rewrite (up_sum (fun i => bsum k (fun u => bsum k (fun v => gt M [q; i; up_i cl yl xl u v])))) by auto.
      (* evaluate the left hand side *)
      assert (Hyxj : yj * w + xj < h * w) by nia. assert (Hyxl : yl * w + xl < h * w) by nia.
      assert (Hqc : q * c + cj < b * c) by nia.
      assert (Hqcc : (q * c + cj) * c + cl < b * c * c) by nia.
      rewrite (get_mkT n0 _ t8 _ [q; cj; yj * w + xj; cl; yl * w + xl])
        by (cbn [shape t8 tab ravel]; unfold chw, D0; numels; ring).
      unfold t8. rewrite get_tab by (cbn; auto 9). cbn [nth].
      unfold t7. rewrite (get_mkT n0 _ t6 _ [(q * c + cj) * c + cl; yj * w + xj; yl * w + xl])
        by (cbn [shape t6 tab3 tab ravel]; numels; ring).
      unfold t6. rewrite get_tab3 by auto.
      rewrite (get_mkT n0 _ t5 _ [(((q * c + cj) * c + cl) * h + yl) * w + xl; 0; yj; xj])
        by (cbn [shape t5 tab4 tab ravel]; numels; ring).
      assert (H5 : ((q * c + cj) * c + cl) * h + yl < b * c * c * h) by nia.
      assert (H5' : (((q * c + cj) * c + cl) * h + yl) * w + xl < b * c * c * h * w) by nia.
      unfold t5. rewrite get_tab4 by auto. clear H5 H5'.
      apply bsum_ext. intros u Hu. apply bsum_ext. intros v Hv.
      assert (Hyu : yj * k + u < h2) by (unfold h2; nia). assert (Hxv : xj * k + v < w2) by (unfold w2; nia).
      assert (Hyx2 : (yj * k + u) * w2 + (xj * k + v) < h2 * w2) by nia.
      rewrite (get_mkT n0 _ t4 _ [(q * c + cj) * c + cl; yl * w + xl; (yj * k + u) * w2 + (xj * k + v)])
        by (cbn [shape t4 tab3 tab ravel]; numels; ring).
      unfold t4. rewrite get_tab3 by auto.
      rewrite (get_mkT n0 _ t3 _ [(((q * c + cj) * c + cl) * h2 + (yj * k + u)) * w2 + (xj * k + v); 0; yl; xl])
        by (cbn [shape t3 tab4 tab ravel]; numels; ring).
      assert (H5 : ((q * c + cj) * c + cl) * h2 + (yj * k + u) < b * c * c * h2) by nia.
      assert (H5' : (((q * c + cj) * c + cl) * h2 + (yj * k + u)) * w2 + (xj * k + v) < b * c * c * h2 * w2) by nia.
      unfold t3. rewrite get_tab4 by auto. clear H5 H5'.
      apply bsum_ext. intros u' Hu'. apply bsum_ext. intros v' Hv'.
      assert (Hyu' : yl * k + u' < h2) by (unfold h2; nia). assert (Hxv' : xl * k + v' < w2) by (unfold w2; nia).
      assert (Hyx2' : (yl * k + u') * w2 + (xl * k + v') < h2 * w2) by nia.
      rewrite (get_mkT n0 _ t2 _ [q; cj; cl; (yj * k + u) * w2 + (xj * k + v); (yl * k + u') * w2 + (xl * k + v')])
        by (cbn [shape t2 tab ravel]; numels; ring).
      unfold t2. rewrite get_tab by (cbn; auto 9). cbn [nth].
      unfold t1. apply get_mkT. rewrite Sv. cbn [ravel]. unfold up_i, chw, D1. fold h2 w2. numels. ring.
    Qed.

    Lemma pull_embed m n (M : T) JJ td : shape M = [b; m] ->
      pull b m n JJ false td (tab3 b m m (fun q i j => if Nat.eqb i j then gt M [q; i] else n0)) = pull b m n JJ true td M.
    Proof.
      intros S. apply present_ext. intros q j l Hq Hj Hl. apply pull_at_ext; auto. intros i i' Hi Hi'.
      cbn [metric]. now rewrite get_tab3.
    Qed.
    Lemma pull_diagonal m n (M : T) JJ fd :
      diagonal12 (pull b m n JJ fd false M) = Ok (pull b m n JJ fd true M).
    Proof.
      rewrite diagonal12_ok with (b := b) (n := n) by reflexivity. f_equal. apply tab2_ext. intros.
      unfold pull, present. now rewrite get_tab3.
    Qed.
    Lemma up_jTmjp_in fd td db M : wf M -> shape M = metric_shape fd b D1 ->
      up_jTmjp sn sd x val (Some M) Input fd td db = Ok (Some (pull b D1 D0 J fd td M)).
    Proof.
      intros WM SM. unfold up_jTmjp. rewrite up_val_ok. cbn [bind]. unfold unpack4. rewrite Sx, up_y. cbn [bind].
      rewrite Nat.eqb_refl. cbn [check]. fold D1.
      assert (Q : shape_eqb (shape M) (if fd then [b; D1] else [b; D1; D1]) = true).
      { apply shape_eqb_true. destruct fd; auto. }
      rewrite Q. cbn [check]. destruct fd, td; cbn [metric_shape] in SM.
      - now rewrite up_dd by auto.
      - rewrite diag_embed2 with (b := b) (n := D1) by auto. cbn [bind].
        rewrite up_full by (try apply wf_tab; reflexivity). now rewrite pull_embed.
      - rewrite up_full by auto. cbn [bind]. now rewrite pull_diagonal.
      - now rewrite up_full by auto.
    Qed.
    Lemma up_jTmjp_w fd td db M : wf M -> shape M = metric_shape fd b D1 ->
      up_jTmjp sn sd x val (Some M) Weight fd td db = Ok None.
    Proof.
      intros WM SM. unfold up_jTmjp. rewrite up_val_ok. cbn [bind]. unfold unpack4. rewrite Sx, up_y. cbn [bind].
      rewrite Nat.eqb_refl. cbn [check]. fold D1.
      assert (Q : shape_eqb (shape M) (if fd then [b; D1] else [b; D1; D1]) = true).
      { apply shape_eqb_true. destruct fd; auto. }
      now rewrite Q.
    Qed.
  End U.

  Lemma upsample_spec sn sd s s' : let l := Upsample sn sd in leaf_typed l s s' ->
    leaf_fwd_spec l s s' /\ leaf_jac_spec l s s' /\ leaf_vjp_spec l s s' /\
    leaf_mjp_spec l s s' /\ leaf_pull_spec l s s'.
  Proof.
    intros l (N & N' & Hsd & Hk & Ty). destruct s as [|c [|h [|w [|? ?]]]]; try contradiction.
    destruct s' as [|c' [|h2 [|w2 [|? ?]]]]; try contradiction. destruct Ty as (-> & -> & ->).
    set (k := sn / sd) in *. numels.
    assert (0 < c) by nia. assert (0 < h) by nia. assert (0 < w) by nia. assert (0 < k) by nia.
    assert (E1 : numel [c; h; w] = c * h * w) by (numels; ring).
    assert (E2 : numel [c; h * k; w * k] = c * (h * k) * (w * k)) by (numels; ring).
    assert (JXe : forall b x, shape x = [b; c; h; w] -> leaf_JX l x = fun _ i j => delta (up_src k h w i) j).
    { intros b x Sx. cbn. unfold dim. now rewrite Sx. }
    repeat match goal with |- _ /\ _ => split end; unfold leaf_jac_spec, leaf_vjp_spec, leaf_mjp_spec, leaf_pull_spec,
      with_val; rewrite ?E1, ?E2.
    - intros b x Hb Wx Sx. cbn [leaf_forward l]. rewrite up_fwd_ok with (k := k) (c := c) (h := h) (w := w) (b := b) by auto.
      eexists. split; [reflexivity|]. split; [apply wf_tab|reflexivity].
    - intros b x y val Hb Wx Sx Fy V. rewrite (JXe b x Sx). split; [|reflexivity].
      eapply up_jac_in; eauto.
    - intros b x y val Hb Wx Sx Fy V v Wv Sv. rewrite (JXe b x Sx). split; [|reflexivity].
      eapply up_vjp_in; eauto.
    - intros b x y val Hb Wx Sx Fy V r M Hr WM SM. rewrite (JXe b x Sx). split; [|reflexivity].
      eapply up_mjp_in; eauto.
    - intros b x y val Hb Wx Sx Fy V fd td db M F WM SM. rewrite (JXe b x Sx). split.
      + eapply up_jTmjp_in with (c := c) (h := h) (w := w) (y := y); eauto.
      + eapply up_jTmjp_w with (c := c) (h := h) (w := w) (k := k) (y := y); eauto.
  Qed.
End Up.
