(** Products with respect to the weight of modules without parameters (C22). *)
From Coq Require Import List Arith ZArith Lia Bool.
From Verif Require Import Scalar Sums Tensor TensorLemmas Conv Abstract Simple LinearLayer ConvLayer PoolLayer Module Spec SpecQ Domain OpLemmas Jac TreeBase StateCoh Leaves Trees.
Import ListNotations.
Local Open Scope nat_scope.
Local Open Scope list_scope.

Section NonParam.
  Context {K} `{CR : CRing K}.
  Notation T := (tensor K).

  Lemma db_ok_of fd td db : db = false \/ fd = true /\ td = true -> db_ok fd td db = true.
  Proof. intros [->|[-> ->]]; [reflexivity|now destruct db]. Qed.
  Lemma leaf_np0 (l : leaf K) s s' : leaf_typed l s s' -> leaf_n_params l = 0 -> match l with Linear _ _ | Conv2d _ _ _ => False | _ => True end.
  Proof.
    intros Ty E. destruct l; auto.
    - destruct Ty as (A & B & C). destruct s as [|a [|]], s' as [|c [|]]; try tauto. cbn [leaf_n_params] in E. unfold lin_n_params in E. destruct C as (S & _ & C).
      rewrite S in E. rewrite !numel_cons, numel_nil in *. nia.
    - destruct Ty as (A & B & C). cbn [leaf_n_params] in E. unfold conv_n_params in E. unfold conv_ok in C.
      destruct s as [|a [|a1 [|a2 [|]]]], s' as [|c0 [|c1 [|c2 [|]]]]; try tauto. destruct (shape W) as [|w0 [|w1 [|w2 [|w3 [|]]]]]; try tauto.
      destruct C as (-> & -> & _ & _ & _ & _ & _ & _ & H1 & H2 & _ & _ & H3 & H4 & _). rewrite !numel_cons, numel_nil in E.
      assert (0 < c0 * (a * (w2 * (w3 * 1)))) by (repeat apply Nat.mul_pos_pos; lia). lia.
  Qed.

  Lemma set_nth_len (l : list nat) : forall k v, length (set_nth k v l) = length l.
  Proof. induction l as [|a l IH]; intros [|k] v; cbn; auto. Qed.
  Lemma slice_any (t : T) a e : 1 < rank t -> exists u, slice n0 1 a e t = Ok u /\ rank u = rank t.
  Proof.
    intros R. unfold slice. destruct (Nat.ltb_spec 1 (rank t)); [|lia]. eexists. split; [reflexivity|]. unfold rank. cbn [shape tab]. apply set_nth_len.
  Qed.

  Lemma jvp_np0 :
    (forall (m : module K) s s', typed m s s' -> skips_param m -> n_params m = 0 -> forall b h x val v, 0 < b -> wf x -> shape x = b :: s -> val_ok m x val -> 2 <= rank v ->
       snd (jvp m h x val v Weight) = Ok None) /\
    (forall (ms : list (module K)) s s', typed_seq ms s s' -> skips_param_seq ms -> seq_np ms = 0 -> forall b hk ks fm x v, 0 < b -> wf x -> shape x = b :: s -> 2 <= rank v ->
       snd (seq_jvp_w jvp hk ms ks x fm v 0 None) = Ok None).
  Proof.
    apply typed_both.
    - intros l s s' Ty _ E b h x val v Hb Wx Sx V R. pose proof (leaf_np0 l s s' Ty E) as Z. cbn [jvp snd]. destruct l; try tauto; auto.
      cbn [leaf_jvp]. unfold aj_jvp. destruct Ty as (_ & _ & C). destruct (C b x Hb Wx Sx) as (y & J & Fy & _ & _ & _ & _ & Q).
      assert (V' : val = None \/ val = Some y) by (destruct V as [->|(y' & E' & ->)]; [now left|right; change (cu_forward c x = Ok y') in E'; congruence]).
      destruct (Q val V') as [_ ->]. reflexivity.
    - intros; reflexivity.
    - intros ms s s' Ts IH Sk E b h x val v Hb Wx Sx V R. cbn [jvp]. specialize (IH Sk E b true (st_kids h) (st_fm h) x v Hb Wx Sx R).
      destruct (seq_jvp_w _ _ _ _ _ _ _ _ _) as [[? ?] ?]. exact IH.
    - intros ms c c' r Ts IH [Sk _] E. now destruct Sk.
    - intros; reflexivity.
    - intros m ms s s1 s2 Tm IHm Ts IHs [Km Ks] E b hk ks fm x v Hb Wx Sx R. change (n_params m + seq_np ms = 0) in E.
      destruct (fwd_total m s s1 b x Tm Hb Wx Sx) as (y & Fy & Wy & Sy). cbn [seq_jvp_w]. destruct (kid_split ks) as [k0 ks0]. rewrite forward_eta, Fy. cbn [bind].
      replace (n_params m) with 0 by lia. destruct (slice_any v 0 0) as (vp & Ev & Rk); [lia|]. change (0 + 0) with 0. rewrite Ev. cbn [bind].
      assert (Rv : 2 <= rank vp) by lia.
      assert (I := IHm Km ltac:(lia) b (fst (forward m k0 x)) x (Some y) vp Hb Wx Sx (or_intror (ex_intro _ y (conj Fy eq_refl))) Rv).
      destruct (jvp m _ x (Some y) vp Weight) as [k1 r1]. cbn [snd] in I. rewrite I. cbn [bind accumulate].
      specialize (IHs Ks ltac:(lia) b hk ks0 (hook_push hk fm y) y v Hb Wy Sy R). destruct (seq_jvp_w _ _ _ _ _ _ _ _ _) as [[? ?] ?]. exact IHs.
  Qed.
  Lemma jmp_np0 :
    (forall (m : module K) s s', typed m s s' -> skips_param m -> n_params m = 0 -> forall b h x val v, 0 < b -> wf x -> shape x = b :: s -> val_ok m x val -> 3 = rank v ->
       snd (jmp m h x val (Some v) Weight) = Ok None) /\
    (forall (ms : list (module K)) s s', typed_seq ms s s' -> skips_param_seq ms -> seq_np ms = 0 -> forall b hk ks fm x v, 0 < b -> wf x -> shape x = b :: s -> 3 = rank v ->
       snd (seq_jmp_w jmp hk ms ks x fm v 0 None) = Ok None).
  Proof.
    apply typed_both.
    - intros l s s' Ty _ E b h x val v Hb Wx Sx V R. pose proof (leaf_np0 l s s' Ty E) as Z. cbn [jmp snd]. destruct l; try tauto; auto.
      cbn [leaf_jmp]. unfold aj_jmp. destruct Ty as (_ & _ & C). destruct (C b x Hb Wx Sx) as (y & J & Fy & _ & _ & _ & _ & Q).
      assert (V' : val = None \/ val = Some y) by (destruct V as [->|(y' & E' & ->)]; [now left|right; change (cu_forward c x = Ok y') in E'; congruence]).
      destruct (Q val V') as [_ ->]. reflexivity.
    - intros; reflexivity.
    - intros ms s s' Ts IH Sk E b h x val v Hb Wx Sx V R. cbn [jmp]. specialize (IH Sk E b true (st_kids h) (st_fm h) x v Hb Wx Sx R).
      destruct (seq_jmp_w _ _ _ _ _ _ _ _ _) as [[? ?] ?]. exact IH.
    - intros ms c c' r Ts IH [Sk _] E. now destruct Sk.
    - intros; reflexivity.
    - intros m ms s s1 s2 Tm IHm Ts IHs [Km Ks] E b hk ks fm x v Hb Wx Sx R. change (n_params m + seq_np ms = 0) in E.
      destruct (fwd_total m s s1 b x Tm Hb Wx Sx) as (y & Fy & Wy & Sy). cbn [seq_jmp_w]. destruct (kid_split ks) as [k0 ks0]. rewrite forward_eta, Fy. cbn [bind].
      replace (n_params m) with 0 by lia. destruct (slice_any v 0 0) as (vp & Ev & Rk); [lia|]. change (0 + 0) with 0. rewrite Ev. cbn [bind]. rewrite <- R. cbn [Nat.eqb check].
      assert (Rv : 3 = rank vp) by lia.
      assert (I := IHm Km ltac:(lia) b (fst (forward m k0 x)) x (Some y) vp Hb Wx Sx (or_intror (ex_intro _ y (conj Fy eq_refl))) Rv).
      destruct (jmp m _ x (Some y) (Some vp) Weight) as [k1 r1]. cbn [snd] in I. rewrite I. cbn [bind accumulate].
      specialize (IHs Ks ltac:(lia) b hk ks0 (hook_push hk fm y) y v Hb Wy Sy R). destruct (seq_jmp_w _ _ _ _ _ _ _ _ _) as [[? ?] ?]. exact IHs.
  Qed.

  Lemma blocks_np0 (ms : list (module K)) t p fd : seq_np ms = 0 -> seq_blocks ms t p fd = Ok [].
  Proof. induction ms as [|m ms IH]; intros E; auto. change (n_params m + seq_np ms = 0) in E. cbn [seq_blocks]. replace (n_params m) with 0 by lia. apply IH. lia. Qed.
  Lemma seq_jmjTp_np0 (ms : list (module K)) f hk fm : forall ks k bs fd td db, seq_np ms = 0 -> snd (seq_jmjTp_w f hk fm ms ks k bs VNone fd td db) = Ok VNone.
  Proof.
    induction ms as [|m ms IH]; intros ks k bs fd td db E; auto. change (n_params m + seq_np ms = 0) in E. cbn [seq_jmjTp_w]. destruct (kid_split ks) as [k0 ks0].
    replace (n_params m) with 0 by lia. cbn [Nat.eqb]. specialize (IH ks0 (S k) bs fd td db ltac:(lia)). destruct (seq_jmjTp_w _ _ _ _ _ _ _ _ _ _ _). exact IH.
  Qed.
  Lemma jmjTp_np0 (m : module K) s s' : typed m s s' -> (forall F, m <> Skip F) -> n_params m = 0 -> forall b h x val M fd td db, 0 < b -> wf x -> shape x = b :: s -> val_ok m x val ->
    db_ok fd td db = true -> snd (jmjTp m h x val (VT M) Weight fd td db) = Ok VNone.
  Proof.
    intros Ty NS E b h x val M fd td db Hb Wx Sx V Db. destruct (fwd_total m s s' b x Ty Hb Wx Sx) as (y & Fy & _).
    destruct m as [l|c|hk ms|F].
    - inversion Ty as [? ? ? L| | |]; subst. pose proof (leaf_np0 l s s' L E) as Z. cbn [jmjTp to_opt bind snd]. change (leaf_forward l x = Ok y) in Fy.
      assert (V' : val = None \/ val = Some y) by (destruct V as [->|(y' & E' & ->)]; [now left|right; change (leaf_forward l x = Ok y') in E'; congruence]).
      assert (Sz : size 0 x = Ok b) by (unfold size; now rewrite Sx).
      destruct l; try tauto; cbn [leaf_forward leaf_jmjTp] in *; auto.
      + unfold ad_jmjTp. rewrite Sz. cbn [bind]. destruct V' as [-> | ->]; rewrite ?Fy; reflexivity.
      + unfold aj_jmjTp. destruct db; reflexivity.
      + unfold up_jmjTp, up_val. destruct V' as [-> | ->]; rewrite ?Fy; reflexivity.
      + unfold aj_jmjTp. destruct L as (_ & _ & C). destruct (C b x Hb Wx Sx) as (y1 & J & Fy1 & _ & _ & _ & _ & Q).
        assert (y1 = y) by congruence. subst y1. destruct (Q val V') as [_ ->]. destruct db; reflexivity.
    - cbn [jmjTp]. assert (Q : exists h' y', ensure (MaxPool c) h x val = (h', Ok y')).
      { destruct V as [->|(y' & E' & ->)]; [|cbn; eauto]. cbn [ensure]. rewrite forward_eta, Fy. eauto. }
      destruct Q as (h' & y' & ->). reflexivity.
    - cbn [jmjTp]. rewrite Db. assert (Q : exists h' y', ensure (Seq hk ms) h x val = (h', Ok y')).
      { destruct V as [->|(y' & E' & ->)]; [|cbn; eauto]. cbn [ensure]. rewrite forward_eta, Fy. eauto. }
      destruct Q as (h' & y' & ->). cbn [bind]. rewrite (blocks_np0 ms M 0 fd E). cbn [bind].
      pose proof (seq_jmjTp_np0 ms jmjTp hk (st_fm h') (st_kids h') 0 [] fd td db E) as Q. destruct (seq_jmjTp_w _ _ _ _ _ _ _ _ _ _ _). exact Q.
    - now destruct (NS F).
  Qed.
End NonParam.
