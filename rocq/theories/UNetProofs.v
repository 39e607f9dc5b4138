(** The network of the worked example accepts every image whose sides are multiples of 16. *)
From Coq Require Import List Arith NArith Lia Bool Reals.
From Verif Require Import Scalar Sums Tensor TensorLemmas Conv Abstract Simple LinearLayer ConvLayer PoolLayer Module LogLik Utils Spec Domain Notebook.
Import ListNotations.
Local Open Scope nat_scope.
Local Open Scope list_scope.

Section UNet.
  Context {K} `{Num K}.
  Notation T := (tensor K).
  Variable P : nat -> T * T.

  Definition slot (k i o ks : nat) : Prop := shape (fst (P k)) = [o; i; ks; ks] /\ wf (fst (P k)) /\ shape (snd (P k)) = [o] /\ wf (snd (P k)).

  Lemma pos3 a b c : 0 < a -> 0 < b -> 0 < c -> 0 < numel [a; b; c].
  Proof. intros. rewrite !numel_cons, numel_nil. nia. Qed.
  Lemma conv3_typed k i o h w : slot k i o 3 -> 0 < i -> 0 < o -> 0 < h -> 0 < w -> typed (conv3 P k) [i; h; w] [o; h; w].
  Proof.
    intros (S1 & W1 & S2 & W2) Hi Ho Hh Hw. constructor. split; [now apply pos3|]. split; [now apply pos3|]. unfold conv_ok. rewrite S1.
    cbn [cstride cdil cpad cgroups cmode fst snd bias_ok]. unfold dil_ok. repeat split; auto; lia.
  Qed.
  Lemma conv1_typed k i o h w : slot k i o 1 -> 0 < i -> 0 < o -> 0 < h -> 0 < w -> typed (conv1 P k) [i; h; w] [o; h; w].
  Proof.
    intros (S1 & W1 & S2 & W2) Hi Ho Hh Hw. constructor. split; [now apply pos3|]. split; [now apply pos3|]. unfold conv_ok, default_conv. rewrite S1.
    cbn [cstride cdil cpad cgroups cmode fst snd bias_ok]. unfold dil_ok. repeat split; auto; lia.
  Qed.
  Lemma tanh_typed s : 0 < numel s -> typed (@tanh_layer K) s s.
  Proof. intros. constructor. split; [|split]; auto. Qed.

  Lemma window2 h o : o < h -> window (2 * h) 2 2 0 1 o = [2 * o; 2 * o + 1].
  Proof.
    intros Ho. unfold window. cbn [seq map flat_map]. rewrite !Nat.add_0_r, !Nat.sub_0_r.
    replace (o * 2) with (2 * o) by lia. change (1 * 1) with 1.
    assert (E1 : (0 <=? 2 * o) = true) by (apply Nat.leb_le; lia). assert (E2 : (0 <=? 2 * o + 1) = true) by (apply Nat.leb_le; lia).
    assert (E3 : (2 * o <? 2 * h) = true) by (apply Nat.ltb_lt; lia). assert (E4 : (2 * o + 1 <? 2 * h) = true) by (apply Nat.ltb_lt; lia).
    rewrite E1, E2, E3, E4. reflexivity.
  Qed.
  Lemma len2 h : 0 < h -> pool_len (2 * h) 2 2 0 1 false = Some h.
  Proof.
    intros Hh. unfold pool_len. change (1 * (2 - 1) + 1) with 2. change (2 * 0) with 0. rewrite !Nat.add_0_r.
    replace (2 <=? 2 * h) with true by (symmetry; apply Nat.leb_le; lia). change ((0 <? 2) && (0 <? 2) && (0 <? 1) && (0 <=? 2) && true) with true. cbv iota.
    f_equal. replace (2 * h - 2) with ((h - 1) * 2) by lia. rewrite Nat.div_mul; lia.
  Qed.
  Lemma disjoint2 h : disjoint_windows (2 * h) 2 2 0 1 h.
  Proof. intros o o' z Ho Ho' I I'. rewrite window2 in I, I' by auto. cbn in I, I'. lia. Qed.
  Lemma windows2 h : windows_ok (2 * h) 2 2 0 1 h.
  Proof. intros o Ho. rewrite window2 by auto. discriminate. Qed.
  Lemma pool2_typed c h w : 0 < c -> 0 < h -> 0 < w -> typed (@pool2 K) [c; 2 * h; 2 * w] [c; h; w].
  Proof.
    intros Hc Hh Hw. constructor. split; [apply pos3; lia|]. split; [now apply pos3|]. cbn [pk ps pp pd pceil default_pool fst snd].
    split; auto. split; [now apply len2|]. split; [now apply len2|]. split; [apply windows2|]. split; [apply windows2|]. split; apply disjoint2.
  Qed.
  Lemma up2_typed c h w : 0 < c -> 0 < h -> 0 < w -> typed (@up2 K) [c; h; w] [c; 2 * h; 2 * w].
  Proof.
    intros Hc Hh Hw. constructor. split; [now apply pos3|]. split; [apply pos3; lia|]. cbn [leaf_typed]. split; [lia|]. split; [reflexivity|].
    change (2 / 1) with 2. repeat split; lia.
  Qed.
  Lemma skip_typed ms c c' d r : typed_seq ms (c :: r) (c' :: r) -> c + c' = d -> typed (@Skip K (Seq true ms)) (c :: r) (d :: r).
  Proof. intros Ty <-. now constructor. Qed.
End UNet.

Section Whole.
  Context {K} `{Num K}.
  Variables (c : nat) (P : nat -> tensor K * tensor K).
  Hypotheses (Hc : 0 < c) (Sz : unet_sized c P).
  Ltac slot k := let X := fresh in pose proof (Sz k _ _ _ eq_refl) as X; exact X.
  Ltac conv k := eapply tys_cons; [apply (conv3_typed P k); [slot k|lia|lia|lia|lia]|].
  Ltac tanh := eapply tys_cons; [apply tanh_typed, pos3; lia|].
  Ltac pool := eapply tys_cons; [apply pool2_typed; lia|].
  Ltac up := eapply tys_cons; [apply up2_typed; lia|].
  Ltac fin := apply tys_nil, pos3; lia.

  (** the insides of the skip connections *)
  Definition level4 := [@pool2 K; conv3 P 8; tanh_layer; conv3 P 9; tanh_layer; up2].
  Definition level3 := [@pool2 K; conv3 P 6; tanh_layer; conv3 P 7; tanh_layer; Skip (Seq true level4); conv3 P 10; tanh_layer; conv3 P 11; tanh_layer; up2].
  Definition level2 := [@pool2 K; conv3 P 4; tanh_layer; conv3 P 5; tanh_layer; Skip (Seq true level3); conv3 P 12; tanh_layer; conv3 P 13; tanh_layer; up2].
  Definition level1 := [@pool2 K; conv3 P 2; tanh_layer; conv3 P 3; tanh_layer; Skip (Seq true level2); conv3 P 14; tanh_layer; conv3 P 15; tanh_layer; up2].
  Lemma level4_typed a b : 0 < a -> 0 < b -> typed_seq level4 [8 * c; 2 * a; 2 * b] [8 * c; 2 * a; 2 * b].
  Proof. intros Ha Hb. unfold level4. pool. conv 8. tanh. conv 9. tanh. up. fin. Qed.
  Lemma level3_typed a b : 0 < a -> 0 < b -> typed_seq level3 [4 * c; 2 * (2 * a); 2 * (2 * b)] [4 * c; 2 * (2 * a); 2 * (2 * b)].
  Proof.
    intros Ha Hb. unfold level3. pool. conv 6. tanh. conv 7. tanh. eapply tys_cons. { apply (skip_typed _ (8 * c) (8 * c) (16 * c)); [|lia]. now apply level4_typed. }
    conv 10. tanh. conv 11. tanh. up. fin.
  Qed.
  Lemma level2_typed a b : 0 < a -> 0 < b -> typed_seq level2 [2 * c; 2 * (2 * (2 * a)); 2 * (2 * (2 * b))] [2 * c; 2 * (2 * (2 * a)); 2 * (2 * (2 * b))].
  Proof.
    intros Ha Hb. unfold level2. pool. conv 4. tanh. conv 5. tanh. eapply tys_cons. { apply (skip_typed _ (4 * c) (4 * c) (8 * c)); [|lia]. now apply level3_typed. }
    conv 12. tanh. conv 13. tanh. up. fin.
  Qed.
  Lemma level1_typed a b : 0 < a -> 0 < b -> typed_seq level1 [c; 2 * (2 * (2 * (2 * a))); 2 * (2 * (2 * (2 * b)))] [c; 2 * (2 * (2 * (2 * a))); 2 * (2 * (2 * (2 * b)))].
  Proof.
    intros Ha Hb. unfold level1. pool. conv 2. tanh. conv 3. tanh. eapply tys_cons. { apply (skip_typed _ (2 * c) (2 * c) (4 * c)); [|lia]. now apply level2_typed. }
    conv 14. tanh. conv 15. tanh. up. fin.
  Qed.
  Lemma unet_typed a b : 0 < a -> 0 < b -> typed (unet P) [1; 16 * a; 16 * b] [1; 16 * a; 16 * b].
  Proof.
    intros Ha Hb. replace (16 * a) with (2 * (2 * (2 * (2 * a)))) by lia. replace (16 * b) with (2 * (2 * (2 * (2 * b)))) by lia.
    constructor. conv 0. tanh. conv 1. tanh. eapply tys_cons. { apply (skip_typed _ c c (2 * c)); [|lia]. now apply level1_typed. }
    conv 16. tanh. conv 17. tanh. eapply tys_cons; [apply (conv1_typed P 18); [slot 18|lia|lia|lia|lia]|]. fin.
  Qed.
  Lemma unet_sym : all_sym (unet P).
  Proof. cbn. tauto. Qed.
  Lemma conv_count cfg k i o ks : nth_error (unet_table c) k = Some (i, o, ks) ->
    n_params (Leaf (Conv2d cfg (fst (P k)) (Some (snd (P k))))) = o * i * ks * ks + o.
  Proof. intros Ek. destruct (Sz k i o ks Ek) as (S1 & _ & S2 & _). cbn [n_params leaf_n_params]. unfold conv_n_params, dim. rewrite S1. cbn [nth]. rewrite !numel_cons, numel_nil. nia. Qed.
  Lemma unet_count : N.of_nat (n_params (unet P)) = (5364 * (N.of_nat c * N.of_nat c) + 87 * N.of_nat c + 1)%N.
  Proof.
    assert (E : n_params (unet P) = fold_right (fun t n => snd (fst t) * fst (fst t) * snd t * snd t + snd (fst t) + n) 0 (unet_table c)).
    { cbn [unet n_params fold_right conv3 conv1 tanh_layer pool2 up2 unet_table fst snd].
      change leaf_n_params with (fun l : leaf K => n_params (Leaf l)). cbv beta.
      repeat (erewrite conv_count by reflexivity). cbn [n_params leaf_n_params]. lia. }
    rewrite E. cbn [unet_table fold_right fst snd]. nia.
  Qed.
End Whole.
