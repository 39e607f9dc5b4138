(** Parameters and images for which the network of the worked example is differentiable: every convolution copies
    channel 0, the image rises along both axes, so every pooling window has a unique maximum in its last corner. *)
From Coq Require Import List Arith ZArith Lia Bool Reals Lra.
From Verif Require Import Scalar Sums Tensor TensorLemmas OpLemmas Conv Abstract Simple LinearLayer ConvLayer PoolLayer Module LogLik Utils Spec Domain Smooth Params Trees FwdSpec PoolExact Fwd Notebook UNetProofs.
Import ListNotations.
Local Open Scope nat_scope.
Local Open Scope list_scope.

(** the first n of the c channels rise along both axes *)
Definition rising (n b c h w : nat) (x : tensor R) : Prop :=
  wf x /\ shape x = [b; c; h; w] /\
  forall q ch i j i' j', q < b -> ch < n -> i <= i' -> j <= j' -> i' < h -> j' < w -> i < i' \/ j < j' ->
    (get 0 x [q; ch; i; j] < get 0 x [q; ch; i'; j'])%R.
(** a kernel that copies channel 0 *)
Definition copy_kernel (i o ks : nat) : tensor R :=
  tab [o; i; ks; ks] (fun idx => match idx with [_; 0; 1; 1] => 1%R | _ => 0%R end).
Definition copy_params (c k : nat) : tensor R * tensor R :=
  let '(i, o, ks) := nth k (unet_table c) (1, 1, 1) in (copy_kernel i o ks, zeros [o]).
Definition ramp (b h w : nat) : tensor R :=
  tab [b; 1; h; w] (fun idx => match idx with [_; _; i; j] => INR (i + j) | _ => 0%R end).

Lemma copy_sized c : unet_sized c (copy_params c).
Proof.
  intros k i o ks E. unfold copy_params. rewrite (nth_error_nth _ _ _ E). cbn [fst snd]. split; [reflexivity|]. split; [apply wf_tab|]. split; [reflexivity|]. apply wf_tab.
Qed.
Lemma ramp_rising b h w : rising 1 b 1 h w (ramp b h w).
Proof.
  split; [apply wf_tab|]. split; [reflexivity|]. intros q ch i j i' j' Hq Hc Hi Hj Hi' Hj' L. unfold ramp. rewrite !get_tab by (cbn; repeat split; auto; lia).
  apply lt_INR. lia.
Qed.

Section Steps.
  Variables (c b : nat).
  Notation P := (copy_params c).

  Lemma single n k (f : nat -> R) : k < n -> (forall i, i < n -> i <> k -> f i = 0%R) -> bsum n f = f k.
  Proof. intros Hk Z. apply bsum_single; auto. Qed.
  Lemma sum0R n (f : nat -> R) : (forall i, i < n -> f i = 0%R) -> bsum n f = 0%R.
  Proof. exact (bsum_0 n f). Qed.
  Lemma conv_rising k i o n h w x y : nth_error (unet_table c) k = Some (i, o, 3) -> 0 < i -> 0 < n -> 0 < h -> 0 < w -> rising n b i h w x ->
    fwd (conv3 P k) x = Ok y -> rising o b o h w y.
  Proof.
    intros Ek Hi Hn Hh Hw (Wx & Sx & Rx) E. destruct (copy_sized c k i o 3 Ek) as (S1 & _ & _ & _).
    assert (EW : fst (P k) = copy_kernel i o 3) by (unfold copy_params; now rewrite (nth_error_nth _ _ _ Ek)).
    assert (EB : snd (P k) = zeros [o]) by (unfold copy_params; now rewrite (nth_error_nth _ _ _ Ek)).
    destruct (conv_is (K := R) {| cstride := (1, 1); cpad := (1, 1); cdil := (1, 1); cgroups := 1; cmode := PZeros; cvmap := true |} (fst (P k)) (Some (snd (P k))) b i h w o i 3 3 x y eq_refl Sx S1 E) as (h2 & w2 & Wy & Sy & A1 & A2 & A3 & A4 & Hy).
    cbn [cstride cpad cdil fst snd] in *. assert (h2 = h) by lia. assert (w2 = w) by lia. subst h2 w2.
    split; auto. split; auto. intros q ch r t r' t' Hq Hch Hr Ht Hr' Ht' L.
    assert (V : forall r t, r < h -> t < w -> get 0%R y [q; ch; r; t] = get 0%R x [q; 0; r; t]).
    { clear -Hy Hq Hch EW EB Hi. intros r t Hr Ht. etransitivity; [exact (Hy q ch r t Hq Hch Hr Ht)|]. rewrite EW, EB. cbn [bias_at cgroups].
      rewrite (single i 0); [|auto|].
      2:{ intros c0 Hc0 Nc0. apply sum0R. intros u Hu. apply sum0R.
          intros v Hv. unfold copy_kernel. rewrite get_tab by (cbn; repeat split; auto; lia). destruct c0; [lia|]. apply Rmult_0_l. }
      rewrite (single 3 1); [|lia|].
      2:{ intros u Hu Nu. apply sum0R.
          intros v Hv. unfold copy_kernel. rewrite get_tab by (cbn; repeat split; auto; lia). destruct u as [|[|u]]; try lia; apply Rmult_0_l. }
      rewrite (single 3 1); [|lia|].
      2:{ intros v Hv Nv. unfold copy_kernel. rewrite get_tab by (cbn; repeat split; auto; lia). destruct v as [|[|v]]; try lia; apply Rmult_0_l. }
      unfold copy_kernel, zeros, fill_with. rewrite !get_tab by (cbn; repeat split; auto; lia). unfold pixel.
      replace (Z.of_nat (r * 1 + 1 * 1) - Z.of_nat 1)%Z with (Z.of_nat r) by lia. replace (Z.of_nat (t * 1 + 1 * 1) - Z.of_nat 1)%Z with (Z.of_nat t) by lia.
      replace ((0 <=? Z.of_nat r)%Z && (Z.of_nat r <? Z.of_nat h)%Z && (0 <=? Z.of_nat t)%Z && (Z.of_nat t <? Z.of_nat w)%Z) with true
        by (symmetry; rewrite !andb_true_iff; repeat split; try apply Z.leb_le; try apply Z.ltb_lt; lia).
      rewrite !Nat2Z.id. rewrite Nat.div_1_r, (Nat.div_small ch o) by auto. cbn. ring. }
    rewrite !V by lia. apply Rx; auto.
  Qed.
  Lemma tanh_rising n i h w x y : rising n b i h w x -> n <= i -> fwd (@tanh_layer R) x = Ok y -> rising n b i h w y.
  Proof.
    intros (Wx & Sx & Rx) Hn E. destruct (act_is Tanh x Wx) as (y' & E' & Wy & Sy & Hy). unfold tanh_layer in E. rewrite E' in E. injection E as <-.
    split; auto. split; [congruence|]. intros q ch r t r' t' Hq Hch Hr Ht Hr' Ht' L.
    rewrite !Hy by (rewrite Sx; cbn; repeat split; auto; lia). specialize (Rx q ch r t r' t' Hq Hch Hr Ht Hr' Ht' L).
    set (u := get 0%R x [q; ch; r; t]) in *. set (v := get 0%R x [q; ch; r'; t']) in *. clearbody u v. clear -Rx.
    assert (F : forall a, ((exp a - exp (- a)) / (exp a + exp (- a)) = 1 - 2 / (exp (2 * a) + 1))%R).
    { intros a. replace (2 * a)%R with (a + a)%R by ring. rewrite exp_plus, exp_Ropp. pose proof (exp_pos a). field. nra. }
    rewrite !F. assert (exp (2 * u) < exp (2 * v))%R by (apply exp_increasing; lra). pose proof (exp_pos (2 * u)).
    assert (/ (exp (2 * v) + 1) < / (exp (2 * u) + 1))%R by (apply Rinv_lt_contravar; nra). unfold Rdiv. lra.
  Qed.
  Lemma pool_rising i h w x y : rising i b i (2 * h) (2 * w) x -> 0 < b -> 0 < i -> 0 < h -> 0 < w ->
    fwd (@pool2 R) x = Ok y -> rising i b i h w y.
  Proof.
    intros (Wx & Sx & Rx) Hb Hi Hh Hw E.
    assert (PS : pool_sized (default_pool (2, 2)) [i; 2 * h; 2 * w] [i; h; w]).
    { cbn [pool_sized pk ps pp pd pceil default_pool fst snd]. split; auto. split; auto. split; [lia|]. split; [lia|]. split; auto. split; auto.
      split; [now apply len2|]. split; [now apply len2|]. split; apply windows2. }
    destruct (pool_is_max (default_pool (2, 2)) i (2 * h) (2 * w) h w b x PS Hb Wx Sx) as (y' & E' & Wy & Sy & Hy). unfold pool2 in E. rewrite E' in E. injection E as <-.
    split; auto. split; auto. cbn [pk ps pp pd default_pool fst snd] in Hy. intros q ch r t r' t' Hq Hch Hr Ht Hr' Ht' L.
    assert (V : forall r t, r < h -> t < w -> get 0%R y' [q; ch; r; t] = get 0%R x [q; ch; 2 * r + 1; 2 * t + 1]).
    { clear r t r' t' Hr Ht Hr' Ht' L. intros r t Hr Ht. destruct (Hy q ch r t Hq Hch Hr Ht) as [M (r1 & t1 & [[I1 (u & Hu & Eu)] [I2 (v & Hv & Ev)]] & Ey)].
      apply Rle_antisym; [rewrite Ey|].
      - destruct (Nat.eq_dec r1 (2 * r + 1)) as [->|N1]; [destruct (Nat.eq_dec t1 (2 * t + 1)) as [->|N2]; [apply Rle_refl|]|]; apply Rlt_le, Rx; lia.
      - apply M. split; (split; [lia|exists 1; lia]). }
    rewrite !V by lia. apply Rx; lia.
  Qed.
  Lemma window_out h o : h <= o -> window (2 * h) 2 2 0 1 o = [].
  Proof.
    intros Ho. unfold window. cbn [seq map flat_map]. rewrite !Nat.add_0_r.
    assert (E3 : (o * 2 <? 2 * h) = false) by (apply Nat.ltb_ge; lia). assert (E4 : (o * 2 + 1 * 1 <? 2 * h) = false) by (apply Nat.ltb_ge; lia).
    rewrite E3, E4, !andb_false_r. reflexivity.
  Qed.
  Lemma pool_smooth2 i h w x : rising i b i (2 * h) (2 * w) x -> smooth (@pool2 R) x.
  Proof.
    intros (Wx & Sx & Rx). cbn [smooth pool2]. intros q ch o1 o2 cs Hq Hch. unfold cs. unfold dim in *. rewrite Sx in *. cbn [nth pk ps pp pd default_pool fst snd] in *.
    destruct (Nat.lt_ge_cases o1 h) as [H1|H1]; [|intros N; exfalso; apply N; rewrite (window_out h) by auto; reflexivity].
    destruct (Nat.lt_ge_cases o2 w) as [H2|H2]; [|intros N; exfalso; apply N; rewrite (window_out w), (window2 h) by auto; reflexivity].
    rewrite !window2 by auto. intros _. exists (2 * o1 + 1), (2 * o2 + 1). cbn. split; [tauto|]. intros y2 x2 I N.
    apply Rx; auto; try lia; repeat destruct I as [I|I]; try injection I as <- <-; try tauto; try lia. all: try (now destruct N).
  Qed.
  Lemma skip_rising ms n i c' h w x z : typed_seq ms [i; h; w] [c'; h; w] -> 0 < b -> n <= i -> rising n b i h w x ->
    fwd (Skip (Seq true ms)) x = Ok z -> rising n b (i + c') h w z.
  Proof.
    intros Ty Hb Hn (Wx & Sx & Rx) E. destruct (fwd_total (Seq true ms) _ _ b x (ty_seq _ _ _ Ty) Hb Wx Sx) as (y & Fy & Wy & Sy).
    destruct (skip_is (Seq true ms) b i c' [h; w] x y Fy Sx Sy) as (z' & E' & Wz & Sz & Z1 & _). rewrite E' in E. injection E as <-.
    split; auto. split; auto. intros q ch r t r' t' Hq Hch Hr Ht Hr' Ht' L.
    assert (V : forall r t, r < h -> t < w -> get 0%R z' [q; ch; r; t] = get 0%R x [q; ch; r; t]).
    { intros r0 t0 H1 H2. apply Z1; auto; [lia|]. cbn; auto. }
    rewrite !V by lia. now apply Rx.
  Qed.

  Lemma s_conv k i o n h w x ms : nth_error (unet_table c) k = Some (i, o, 3) -> 0 < i -> 0 < n -> 0 < h -> 0 < w -> rising n b i h w x ->
    (forall y, rising o b o h w y -> smooth_seq smooth ms y) -> smooth_seq smooth (conv3 P k :: ms) x.
  Proof. intros. split; [exact I|]. eauto using conv_rising. Qed.
  Lemma s_tanh n i h w x ms : rising n b i h w x -> n <= i -> (forall y, rising n b i h w y -> smooth_seq smooth ms y) -> smooth_seq smooth (tanh_layer :: ms) x.
  Proof. intros R0 L0 H0. split; [cbn; intros; exact I|]. intros y E. apply H0. now apply tanh_rising with (x := x). Qed.
  Lemma s_pool i h w x ms : rising i b i (2 * h) (2 * w) x -> 0 < b -> 0 < i -> 0 < h -> 0 < w ->
    (forall y, rising i b i h w y -> smooth_seq smooth ms y) -> smooth_seq smooth (pool2 :: ms) x.
  Proof. intros. split; [eapply pool_smooth2; eauto|]. eauto using pool_rising. Qed.
  Lemma s_skip l n i c' h w x ms : typed_seq l [i; h; w] [c'; h; w] -> 0 < b -> n <= i -> rising n b i h w x -> smooth_seq smooth l x ->
    (forall y, rising n b (i + c') h w y -> smooth_seq smooth ms y) -> smooth_seq smooth (Skip (Seq true l) :: ms) x.
  Proof. intros. split; [assumption|]. eauto using skip_rising. Qed.
  Lemma s_up x : smooth_seq smooth [up2] x.
  Proof. split; [exact I|]. intros. exact I. Qed.

  Variables (Hc : 0 < c) (Hb : 0 < b).
  Notation Sz := (copy_sized c).
  Lemma level4_smooth h w x : 0 < h -> 0 < w -> rising (8 * c) b (8 * c) (2 * h) (2 * w) x -> smooth_seq smooth (level4 P) x.
  Proof.
    intros Hh Hw Rx. unfold level4. eapply s_pool; [eassumption|lia..|]. intros y1 R1. eapply (s_conv 8); [reflexivity|lia|..|eassumption|]; try lia. intros y2 R2.
    eapply s_tanh; [eassumption|lia|]. intros y3 R3. eapply (s_conv 9); [reflexivity|lia|..|eassumption|]; try lia. intros y4 R4. eapply s_tanh; [eassumption|lia|]. intros y5 R5. apply s_up.
  Qed.
  Ltac step_conv k := eapply (s_conv k); [reflexivity|lia|..|eassumption|]; try lia; intros ? ?.
  Ltac step_tanh := eapply s_tanh; [eassumption|lia|]; intros ? ?.
  Ltac step_pool := eapply s_pool; [eassumption|lia..|]; intros ? ?.
  Lemma level3_smooth h w x : 0 < h -> 0 < w -> rising (4 * c) b (4 * c) (2 * (2 * h)) (2 * (2 * w)) x -> smooth_seq smooth (level3 P) x.
  Proof.
    intros Hh Hw Rx. unfold level3. step_pool. step_conv 6. step_tanh. step_conv 7. step_tanh.
    eapply s_skip; [apply (level4_typed c P Hc Sz h w); lia|lia| |eassumption|apply (level4_smooth h w); auto|]; [lia|]. replace (8 * c + 8 * c) with (16 * c) by lia. intros ? ?.
    step_conv 10. step_tanh. step_conv 11. step_tanh. apply s_up.
  Qed.
  Lemma level2_smooth h w x : 0 < h -> 0 < w -> rising (2 * c) b (2 * c) (2 * (2 * (2 * h))) (2 * (2 * (2 * w))) x -> smooth_seq smooth (level2 P) x.
  Proof.
    intros Hh Hw Rx. unfold level2. step_pool. step_conv 4. step_tanh. step_conv 5. step_tanh.
    eapply s_skip; [apply (level3_typed c P Hc Sz h w); lia|lia| |eassumption|apply (level3_smooth h w); auto|]; [lia|]. replace (4 * c + 4 * c) with (8 * c) by lia. intros ? ?.
    step_conv 12. step_tanh. step_conv 13. step_tanh. apply s_up.
  Qed.
  Lemma level1_smooth h w x : 0 < h -> 0 < w -> rising c b c (2 * (2 * (2 * (2 * h)))) (2 * (2 * (2 * (2 * w)))) x -> smooth_seq smooth (level1 P) x.
  Proof.
    intros Hh Hw Rx. unfold level1. step_pool. step_conv 2. step_tanh. step_conv 3. step_tanh.
    eapply s_skip; [apply (level2_typed c P Hc Sz h w); lia|lia| |eassumption|apply (level2_smooth h w); auto|]; [lia|]. replace (2 * c + 2 * c) with (4 * c) by lia. intros ? ?.
    step_conv 14. step_tanh. step_conv 15. step_tanh. apply s_up.
  Qed.
  Lemma unet_smooth h w : 0 < h -> 0 < w -> smooth (unet P) (ramp b (16 * h) (16 * w)).
  Proof.
    intros Hh Hw. pose proof (ramp_rising b (16 * h) (16 * w)) as Rx.
    assert (E1 : 16 * h = 2 * (2 * (2 * (2 * h)))) by lia. assert (E2 : 16 * w = 2 * (2 * (2 * (2 * w)))) by lia. rewrite E1, E2 in *.
    change (smooth_seq smooth [conv3 P 0; tanh_layer; conv3 P 1; tanh_layer; Skip (Seq true (level1 P)); conv3 P 16; tanh_layer; conv3 P 17; tanh_layer; conv1 P 18]
      (ramp b (2 * (2 * (2 * (2 * h)))) (2 * (2 * (2 * (2 * w)))))).
    step_conv 0. step_tanh. step_conv 1. step_tanh.
    eapply s_skip; [apply (level1_typed c P Hc Sz h w); lia|lia| |eassumption|apply (level1_smooth h w); auto|]; [lia|]. replace (c + c) with (2 * c) by lia. intros ? ?.
    step_conv 16. step_tanh. step_conv 17. step_tanh. split; [exact I|]. intros. exact I.
  Qed.
End Steps.

Lemma unet_case b c a d : 0 < b -> 0 < c -> 0 < a -> 0 < d ->
  unet_sized c (copy_params c) /\ wf (ramp b (16 * a) (16 * d)) /\ shape (ramp b (16 * a) (16 * d)) = b :: [1; 16 * a; 16 * d] /\
  smooth (unet (copy_params c)) (ramp b (16 * a) (16 * d)) /\ n_params (unet (copy_params c)) <> 0 /\ exists w0, get_weight (unet (copy_params c)) = Ok w0.
Proof.
  intros Hb Hc Ha Hd. split; [apply copy_sized|]. split; [apply wf_tab|]. split; [reflexivity|]. split; [now apply unet_smooth|].
  split.
  - pose proof (unet_count c (copy_params c) Hc (copy_sized c)) as E. intros Z. rewrite Z in E. lia.
  - eexists. apply get_weight_ok; [|discriminate]. exact (proj1 typed_sized _ _ _ (unet_typed c (copy_params c) Hc (copy_sized c) a d Ha Hd)).
Qed.
(** one Linear layer with weight 1 *)
Lemma not_the_mean : exists (m : module R) (std x : tensor R) h w0 w1,
  sized m /\ get_weight m = Ok w0 /\ wf std /\ shape std = [n_params m] /\
  get_weight (fst (fst (sample_prediction m h std (zeros [n_params m]) x))) = Ok w1 /\ w1 <> w0.
Proof.
  exists (Leaf (Linear (mkT [1; 1] [1%R]) None)), (mkT [1] [1%R]), (mkT [1; 1] [1%R]), st0, (mkT [1] [1%R]), (mkT [1] [(1 * 0)%R]).
  split; [exists 1, 1; repeat split; reflexivity|]. split; [reflexivity|]. split; [reflexivity|]. split; [reflexivity|].
  split; [reflexivity|]. intros E. injection E as E. lra.
Qed.
