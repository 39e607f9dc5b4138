(** vjp, mjp and jacobian in the storage model. *)
From Coq Require Import String Ascii List Arith ZArith Lia Bool FinFun.
From Verif Require Import Scalar Tensor Conv Abstract Simple LinearLayer ConvLayer PoolLayer Module.
From Verif Require Import TensorLemmas OpLemmas EinsumLemmas HooksSpec Loud.
From Verif Require Import Storage StorageBase StorageFwd StorageLoops StorageSum StorageJmj StorageLeaf.
Import ListNotations.
Local Open Scope nat_scope.
Local Open Scope list_scope.

Section StorageBack.
  Context {K} `{CR : CRing K}.
  Notation T := (tensor K).
  Notation mem := (mem K).
  Implicit Types g : mem.
  Notation CallO := (Call Ro hof_opt).
  Variable cg : ref -> bool.
  Notation hforward := (hforward cg).
  Notation hensure := (hensure cg).

  (** *** Reasoning steps *)
  Lemma RR_raise {A B} (P : A -> B -> Prop) e (v : res B) : RR P (Raise e) v -> v = Raise e.
  Proof. destruct v; cbn; [tauto|now intros ->]. Qed.
  Lemma RR_ok {A B} (P : A -> B -> Prop) a (v : res B) : RR P (Ok a) v -> exists b, v = Ok b /\ P a b.
  Proof. destruct v; cbn; [eauto|tauto]. Qed.
  Lemma Rr_rd g x vx : Rr g x vx -> rd g x = vx. Proof. now intros [-> _]. Qed.
  Lemma Rr_lt g x vx : Rr g x vx -> rl x < len g. Proof. now intros [_ H]. Qed.

  (** the state of a network after a loop over its layers, self.feature_maps unchanged *)
  Lemma back_state g g1 g2 s s1 vs1 (x : ref) ks2 vks2 : keeps g g1 -> Rs g1 s1 vs1 ->
    grows g g1 (locs s ++ [rl x]) (locs s1) -> keeps g1 g2 -> Rk g2 ks2 vks2 ->
    grows g1 g2 (flat_map locs (h_kids s1) ++ map rl (h_fm s1)) (flat_map locs ks2) ->
    keeps g g2 /\ Rs g2 (HSt (h_fm s1) (h_idx s1) ks2) (St (st_fm vs1) (st_idx vs1) vks2) /\
    grows g g2 (locs s ++ [rl x]) (locs (HSt (h_fm s1) (h_idx s1) ks2)) /\
    (forall l, In l (locs (HSt (h_fm s1) (h_idx s1) ks2)) -> In l (locs s1) \/ len g1 <= l < len g2).
  Proof.
    intros K1 R1 G1 K2 Rk2 G2. pose proof (k_len _ _ _ K1). pose proof (k_len _ _ _ K2).
    assert (D : forall l, In l (locs (HSt (h_fm s1) (h_idx s1) ks2)) -> In l (locs s1) \/ len g1 <= l < len g2).
    { intros l Hl. apply locs_mk in Hl as [Hl|Hl]; [left; apply locs_eq; auto|].
      apply G2 in Hl as [Hl|]; auto. left. apply locs_eq. apply in_app_or in Hl. tauto. }
    split; [eapply keeps_trans; eauto|]. split; [|split; [|exact D]].
    - rewrite (Rs_idx _ _ _ R1). apply Rs_mk; auto. exact (keeps_Rf _ _ _ _ K2 (Rs_fm _ _ _ R1)).
    - intros l Hl. apply D in Hl as [Hl|]; [|right; lia]. apply G1 in Hl as [|]; [auto|right; lia].
  Qed.

  (** the argument of the loop is the argument of the method or a new tensor *)
  Definition argok g g0 g1 (a v : hvalue) : Prop :=
    (v = a /\ (forall l, In l (vlocs a) -> l < len g)) \/
    (exists e, v = HT e /\ len g0 <= rl e < len g1 /\ proper g1 e).
  Lemma outv_argok g g0 g1 g2 a v L L' q : keeps g g0 -> keeps g0 g1 -> argok g g0 g1 a v ->
    outv g1 v Input g2 L q -> keeps g1 g2 -> (forall l, In l L' -> In l L \/ l < len g0) ->
    (forall l, In l L' -> l < len g0 \/ len g1 <= l) -> outv g a Input g2 L' q.
  Proof.
    intros K0 K1 A [O P] K2 HL HD. pose proof (k_len _ _ _ K0). pose proof (k_len _ _ _ K1). pose proof (k_len _ _ _ K2).
    assert (Kt := keeps_trans _ _ _ _ K0 K1). destruct A as [[-> B]|(e & -> & Be & Pe)].
    - apply outv_shift with (g1 := g1); auto. apply outv_more with (L := L); [split; auto|].
      intros l Hl. destruct (HL l Hl); [auto|right; lia].
    - split.
      + intros l Hl. left. destruct (O l Hl) as [[R N]|[_ [<-|[]]]].
        * split; [lia|]. intros I. destruct (HL l I); [auto|lia].
        * split; [lia|]. intros I. destruct (HD _ I); lia.
      + destruct q as [|q|]; auto. left. destruct P as [|[_ [|(a0 & Ea & P)]]]; [auto|discriminate|].
        injection Ea as <-. auto.
  Qed.

  Lemma skip_grows g g1 s k (x : ref) : keeps g g1 -> grows g g1 (locs (h_kid s) ++ [rl x]) (locs k) ->
    grows g g1 (locs s ++ [rl x]) (locs (hset_kid s k)).
  Proof.
    intros K1 G l Hl. apply locs_set in Hl as [Hl|Hl]; [left; apply in_or_app; auto|].
    apply G in Hl as [Hl|]; auto. left. apply in_app_or in Hl as [Hl|]; apply in_or_app; auto.
    left. now apply locs_kid.
  Qed.

  (** *** vjp *)
  Definition vjp_in_call (f : module K -> mem -> hst -> ref -> option ref -> ref -> wrt -> mem * hst * res (option ref))
    : call_t (V := ref) := fun m ms k g s x y v => let '(g, s, r) := f m g s x (Some y) v Input in (g, s, r <- r ;; need r).
  Definition vjp_in_vcall (f : module K -> st K -> T -> option T -> T -> wrt -> st K * res (option T))
    : vcall_t (VV := T) := fun m ms k s x y v => let '(s, r) := f m s x (Some y) v Input in (s, r <- r ;; need r).
  Definition vjp_w_call (f : module K -> mem -> hst -> ref -> option ref -> ref -> wrt -> mem * hst * res (option ref))
    : callw_t (V := ref) (W := ref) := fun m ms k g s x y v => f m g s x (Some y) v Weight.
  Definition vjp_w_vcall (f : module K -> st K -> T -> option T -> T -> wrt -> st K * res (option T))
    : vcallw_t (VV := T) (WW := T) := fun m ms k s x y v => f m s x (Some y) v Weight.

  Lemma hseq_vjp_in_bin f hooks fm ms : forall g ks k v,
    hseq_vjp_in f hooks fm ms g ks k v = bin (vjp_in_call f) hooks fm ms g ks k v.
  Proof.
    induction ms as [|m ms IH]; intros; cbn [hseq_vjp_in bin]; [reflexivity|].
    destruct (hkid_split ks) as [s ks0]. rewrite IH. destruct (bin (vjp_in_call f) hooks fm ms g ks0 (S k) v) as [[g1 ks1] r1].
    destruct r1 as [v1|]; cbn [bind]; [|reflexivity]. destruct (hfmap2 hooks fm k) as [[x y]|]; cbn [bind]; [|reflexivity].
    unfold vjp_in_call. now destruct (f m g1 s x (Some y) v1 Input) as [[? ?] ?].
  Qed.
  Lemma seq_vjp_in_bin f hooks fm ms : forall ks k v,
    seq_vjp_in f hooks fm ms ks k v = vbin (vjp_in_vcall f) hooks fm ms ks k v.
  Proof.
    induction ms as [|m ms IH]; intros; cbn [seq_vjp_in vbin]; [reflexivity|].
    destruct (kid_split ks) as [s ks0]. rewrite IH. destruct (vbin (vjp_in_vcall f) hooks fm ms ks0 (S k) v) as [ks1 r1].
    destruct r1 as [v1|]; cbn [bind]; [|reflexivity]. destruct (fmap2 hooks fm k) as [[x y]|]; cbn [bind]; [|reflexivity].
    unfold vjp_in_vcall. now destruct (f m s x (Some y) v1 Input) as [? ?].
  Qed.
  Lemma hseq_vjp_w_bw f hooks fm ms : forall g ks k v,
    hseq_vjp_w f hooks fm ms g ks k v = bw (vjp_in_call f) (vjp_w_call f) hooks fm ms g ks k v.
  Proof.
    induction ms as [|m ms IH]; intros; cbn [hseq_vjp_w bw]; [reflexivity|].
    destruct (hkid_split ks) as [s ks0]. rewrite IH.
    destruct (bw (vjp_in_call f) (vjp_w_call f) hooks fm ms g ks0 (S k) v) as [[g1 ks1] r1].
    destruct r1 as [[ws v1]|]; cbn [bind]; [|reflexivity]. destruct (hfmap2 hooks fm k) as [[x y]|]; cbn [bind]; [|reflexivity].
    unfold vjp_w_call. destruct (f m g1 s x (Some y) v1 Weight) as [[g2 s2] [vk|]]; [|reflexivity].
    destruct (Nat.eqb k 0); [reflexivity|].
    unfold vjp_in_call. destruct (f m g2 s2 x (Some y) v1 Input) as [[? ?] [r|]]; cbn [bind]; [|reflexivity].
    now destruct r.
  Qed.
  Lemma seq_vjp_w_bw f hooks fm ms : forall ks k v,
    seq_vjp_w f hooks fm ms ks k v = vbw (vjp_in_vcall f) (vjp_w_vcall f) hooks fm ms ks k v.
  Proof.
    induction ms as [|m ms IH]; intros; cbn [seq_vjp_w vbw]; [reflexivity|].
    destruct (kid_split ks) as [s ks0]. rewrite IH.
    destruct (vbw (vjp_in_vcall f) (vjp_w_vcall f) hooks fm ms ks0 (S k) v) as [ks1 r1].
    destruct r1 as [[ws v1]|]; cbn [bind]; [|reflexivity]. destruct (fmap2 hooks fm k) as [[x y]|]; cbn [bind]; [|reflexivity].
    unfold vjp_w_vcall. destruct (f m s x (Some y) v1 Weight) as [s2 [vk|]]; [|reflexivity].
    destruct (Nat.eqb k 0); [reflexivity|].
    unfold vjp_in_vcall. destruct (f m s2 x (Some y) v1 Input) as [? [r|]]; cbn [bind]; [|reflexivity].
    now destruct r.
  Qed.

  Lemma Call_need g s x a g' s' r p : CallO g s x a Input g' s' r p ->
    Call Rr HT g s x a Input g' s' (r <- r ;; need r) (fst p, q <- snd p ;; need q).
  Proof.
    intros (K1 & R1 & Rr1 & G1 & O1). split; [auto|]. split; [auto|]. split; [|split; [auto|]].
    - destruct r as [[q|]|], (snd p) as [[vq|]|]; cbn in *; auto; tauto.
    - intros q Hq. destruct r as [[q1|]|]; try discriminate. injection Hq as <-. split; [discriminate|].
      now apply (O1 (Some q1)).
  Qed.
  Lemma vjp_in_ok f vf m : mspecR f vf m -> call_in Rr HT (vjp_in_call f) (vjp_in_vcall vf) m.
  Proof.
    intros H ms k g s vs x vx y vy v vv g' s' r R Rx Ry Rv _ E. unfold vjp_in_call in E.
    destruct (f m g s x (Some y) v Input) as [[g1 s1] r1] eqn:E1. injection E as <- <- <-.
    pose proof (Call_need _ _ _ _ _ _ _ _ (H _ _ _ _ _ (Some y) (Some vy) _ _ _ _ _ _ R Rx Ry Rv E1)) as C.
    unfold vjp_in_vcall. now destruct (vf m vs vx (Some vy) vv Input).
  Qed.
  (** a product with respect to the weights has a storage of its own *)
  Lemma Call_w g s x a g' s' r p : CallO g s x a Weight g' s' r p ->
    keeps g g' /\ Rs g' s' (fst p) /\ RR (RWo Rr g') r (snd p) /\ grows g g' (locs s ++ [rl x]) (locs s') /\
    (forall q, r = Ok q -> forall l, In l (vlocs (two HT q)) -> len g <= l < len g' /\ ~ In l (locs s')).
  Proof.
    intros (K1 & R1 & Rr1 & G1 & O1). split; [auto|]. split; [auto|]. split; [exact Rr1|]. split; [auto|].
    intros q Hq l Hl. destruct (O1 q Hq) as [_ [O _]]. destruct q as [q|]; [|destruct Hl].
    destruct (O l Hl) as [|[? _]]; [auto|discriminate].
  Qed.
  Lemma vjp_w_ok f vf m : mspecR f vf m -> call_w Rr HT Rr HT (vjp_w_call f) (vjp_w_vcall vf) m.
  Proof.
    intros H ms k g s vs x vx y vy v vv g' s' r R Rx Ry Rv _ E. unfold vjp_w_call in E.
    eapply Call_w. eapply (H _ _ _ _ _ (Some y) (Some vy)); eauto.
  Qed.
  Lemma Rr_mono' A g g' v vv : keepsx A g g' -> out A (vlocs (HT v)) -> Rr g v vv -> Rr g' v vv.
  Proof. apply Rr_mono. Qed.
  Lemma Rr_bound' g v vv : Rr g v vv -> forall l, In l (vlocs (HT v)) -> l < len g.
  Proof. intros R l [<-|[]]. apply R. Qed.
  Lemma Ro_mono' A g g' v vv : keepsx A g g' -> out A (vlocs (hof_opt v)) -> Ro g v vv -> Ro g' v vv.
  Proof. intros Kp O. eapply Ro_mono; eauto. destruct v; exact O. Qed.
  Lemma Ro_bound' g v vv : Ro g v vv -> forall l, In l (vlocs (hof_opt v)) -> l < len g.
  Proof. destruct v as [v|], vv as [vv|]; cbn; try tauto. intros R l [<-|[]]. apply R. Qed.

  Lemma rd_list g l vl : Forall2 (Rr g) l vl -> map (rd g) l = vl.
  Proof. induction 1 as [|a b l vl [E _] _ IH]; cbn; congruence. Qed.

  Lemma hvjp_ok : forall m, answers m -> mspecR (hvjp cg) vjp m.
  Proof.
    fix IH 1. intros m A g s vs x vx val vval a va w g' s' r R Rx Rv Ra. destruct m as [l|cfg|hooks ms|F]; cbn [hvjp vjp].
    - destruct (hleaf_vjp g l x val a w) as [g1 r1] eqn:E. injection 1 as <- <- <-.
      eapply leaf_vjp_call; eauto; destruct l; auto.
    - destruct w; [|injection 1 as <- <- <-; apply none_call; auto using keeps_refl, grows_refl; discriminate..].
      destruct (hensure (MaxPool cfg) g s x val) as [[g1 s1] r1] eqn:E1.
      destruct (hensure_ok cg _ _ _ _ _ _ _ _ _ _ _ R Rx Rv E1) as (K1 & R1 & Rr1 & G1).
      destruct (ensure (MaxPool cfg) vs vx vval) as [vs1 vr1]. cbn [fst snd] in *.
      unfold hthen. destruct (fresh_opt _ _) as [g2 r2] eqn:E2. injection 1 as <- <- <-.
      eapply fresh_call; eauto.
      + intros _. destruct vr1; cbn; [apply some_nn|discriminate].
      + rewrite (Rs_idx _ _ _ R1), (Rr_rd _ _ _ (keeps_Rr _ _ _ _ K1 Rx)), (Rr_rd _ _ _ (keeps_Rr _ _ _ _ K1 Ra)) in E2.
        rewrite <- E2. f_equal. destruct r1 as [y|e], vr1 as [vy|e']; cbn in Rr1 |- *; try tauto; [|congruence].
        now rewrite (Rr_rd _ _ _ Rr1).
    - destruct (wrt_ok w) eqn:W; [|injection 1 as <- <- <-; apply raise_call; auto using keeps_refl, grows_refl].
      destruct (hensure (Seq hooks ms) g s x val) as [[g1 s1] r1] eqn:E1.
      destruct (hensure_ok cg _ _ _ _ _ _ _ _ _ _ _ R Rx Rv E1) as (K1 & R1 & Rr1 & G1).
      destruct (ensure (Seq hooks ms) vs vx vval) as [vs1 vr1]. cbn [fst snd] in *.
      destruct r1 as [y|e], vr1 as [vy|e']; cbn in Rr1; try tauto;
        [|injection 1 as <- <- <-; now apply raise_call].
      assert (Fm : Forall (mspecR (hvjp cg) vjp) ms).
      { revert A. clear - IH. induction ms as [|m ms IHm]; cbn; [constructor|]. intros [A1 A2]. constructor; auto. }
      assert (FmI : Forall (call_in Rr HT (vjp_in_call (hvjp cg)) (vjp_in_vcall vjp)) ms).
      { revert Fm. apply Forall_impl. apply vjp_in_ok. }
      assert (FmW : Forall (fun m => call_in Rr HT (vjp_in_call (hvjp cg)) (vjp_in_vcall vjp) m /\
                                     call_w Rr HT Rr HT (vjp_w_call (hvjp cg)) (vjp_w_vcall vjp) m) ms).
      { revert Fm. apply Forall_impl. intros m H. split; [now apply vjp_in_ok|now apply vjp_w_ok]. }
      clear IH A Fm.
      assert (NHT : HT a <> HN) by discriminate.
      destruct w; try discriminate W.
      + rewrite hseq_vjp_in_bin. destruct (bin _ _ _ _ _ _ _ _) as [[g2 ks2] r2] eqn:E2. injection 1 as <- <- <-.
        destruct (bin_ok cg Rr HT Rr_bound' _ _ _ _ _ _ FmI _ _ _ _ _ _ _ _ _ (Rs_kids _ _ _ R1) (Rs_fm _ _ _ R1)
                    (keeps_Rr _ _ _ _ K1 Ra) NHT E2) as (K2 & Rk2 & Rr2 & G2 & O2).
        rewrite seq_vjp_in_bin. destruct (vbin _ _ _ _ _ _ _) as [vks2 vr2]. cbn [fst snd] in *.
        destruct (back_state g g1 g2 s s1 vs1 x ks2 vks2 K1 R1 G1 K2 Rk2 G2) as (Kf & Rf & Gf & Df).
        split; [auto|]. split; [auto|]. split; [destruct r2, vr2; cbn in *; auto|]. split; [auto|].
        intros q Hq. destruct r2 as [q2|]; [|discriminate]. cbn in Hq. injection Hq as <-.
        split; [discriminate|]. destruct (O2 _ eq_refl) as [_ O].
        apply outv_shift with (g1 := g1); auto; [eapply Rr_bound'; eauto|]. eapply outv_more; [exact O|].
        intros l Hl. left. apply locs_mk in Hl. rewrite in_app_iff. tauto.
      + rewrite hseq_vjp_w_bw. destruct (bw _ _ _ _ _ _ _ _ _) as [[g2 ks2] r2] eqn:E2.
        destruct (bw_ok cg Rr HT Rr_mono' _ _ Rr HT Rr_mono' _ _ _ _ _ _ FmW _ _ _ _ _ _ _ _ _
                    (Rs_kids _ _ _ R1) (Rs_fm _ _ _ R1) (keeps_Rr _ _ _ _ K1 Ra) NHT E2) as (K2 & Rk2 & Rr2 & G2 & O2).
        rewrite seq_vjp_w_bw. destruct (vbw _ _ _ _ _ _ _ _) as [vks2 vr2]. cbn [fst snd] in *.
        destruct (fresh_opt _ _) as [g3 r3] eqn:E3. injection 1 as <- <- <-.
        destruct (back_state g g1 g2 s s1 vs1 x ks2 vks2 K1 R1 G1 K2 Rk2 G2) as (Kf & Rf & Gf & Df).
        eapply fresh_call; eauto; [discriminate|]. rewrite <- E3. f_equal.
        destruct r2 as [[ws2 v2]|e], vr2 as [[vws2 vv2]|e']; cbn in Rr2 |- *; try tauto; [|congruence].
        destruct Rr2 as [Rw _]. cbn in Rw. rewrite (rd_list _ _ _ Rw). destruct Rw; reflexivity.
    - rewrite (Rr_rd _ _ _ Rx). destruct (numel0 vx) as [ll|e]; cbn [bind];
        [|injection 1 as <- <- <-; apply raise_call; auto using keeps_refl, grows_refl].
      pose proof (hval_tail_ok g ll val vval Rv) as Rt.
      destruct (hval_tail ll val) as [t|e], (val_tail ll vval) as [vt|e']; cbn in Rt; try tauto; cbn [bind];
        [|injection 1 as <- <- <-; apply raise_call; auto using keeps_refl, grows_refl].
      destruct (hslice_from_ok g 1 ll a va Ra) as [Rs1 Ls1].
      destruct (hslice_from 1 ll a) as [b|e], (slice_from n0 1 ll va) as [vb|e']; cbn in Rs1; try tauto; cbn [bind];
        [|injection 1 as <- <- <-; apply raise_call; auto using keeps_refl, grows_refl].
      destruct (hvjp cg F g (h_kid s) x t b w) as [[g1 k1] r1] eqn:E1.
      destruct (IH F A _ _ _ _ _ _ _ _ _ _ _ _ _ (Rs_kid _ _ _ R) Rx Rt Rs1 E1) as (K1 & R1 & Rr1 & G1 & O1).
      destruct (vjp F (st_kid vs) vx vt vb w) as [vk1 vr1]. cbn [fst snd] in *.
      pose proof (Rs_set _ _ _ _ _ (keeps_Rs _ _ _ _ K1 R) R1) as Rf.
      pose proof (skip_grows _ _ _ _ _ K1 G1) as Gf.
      destruct w.
      + destruct (fresh_opt _ _) as [g2 r2] eqn:E2. injection 1 as <- <- <-.
        eapply fresh_call; eauto.
        * intros _. destruct vr1; cbn; [|discriminate]. destruct (slice n0 1 0 ll va); cbn; [|discriminate].
          destruct (need a0); cbn; [apply some_nn|discriminate].
        * rewrite <- E2. f_equal. rewrite (Rr_rd _ _ _ (keeps_Rr _ _ _ _ K1 Ra)).
          destruct r1 as [[q|]|e], vr1 as [[vq|]|e']; cbn in Rr1 |- *; try tauto; [|congruence].
          now rewrite (Rr_rd _ _ _ Rr1).
      + injection 1 as <- <- <-. split; [auto|]. split; [auto|].
        split; [cbn; destruct vr1; exact Rr1|]. split; [auto|]. intros q Hq. destruct (O1 q Hq) as [_ O].
        split; [discriminate|]. apply outv_arg with (a := HT b); [discriminate|]. eapply outv_more; [exact O|].
        intros l Hl. apply locs_set in Hl as [Hl|]; auto. right. now apply R.
      + injection 1 as <- <- <-. destruct r1 as [q|e], vr1 as [vq|e']; cbn in Rr1 |- *; try tauto.
        * apply none_call; auto. discriminate.
        * apply raise_call; auto.
  Qed.

  (** *** mjp *)
  Definition mjp_in_call (f : module K -> mem -> hst -> ref -> option ref -> option ref -> wrt -> mem * hst * res (option ref))
    : call_t (V := option ref) := fun m ms k g s x y v => f m g s x (Some y) v Input.
  Definition mjp_in_vcall (f : module K -> st K -> T -> option T -> option T -> wrt -> st K * res (option T))
    : vcall_t (VV := option T) := fun m ms k s x y v => f m s x (Some y) v Input.
  Definition mjp_w_call (f : module K -> mem -> hst -> ref -> option ref -> option ref -> wrt -> mem * hst * res (option ref))
    : callw_t (V := option ref) (W := ref) := fun m ms k g s x y v => f m g s x (Some y) v Weight.
  Definition mjp_w_vcall (f : module K -> st K -> T -> option T -> option T -> wrt -> st K * res (option T))
    : vcallw_t (VV := option T) (WW := T) := fun m ms k s x y v => f m s x (Some y) v Weight.

  Lemma hseq_mjp_in_bin f hooks fm ms : forall g ks k v,
    hseq_mjp_in f hooks fm ms g ks k v = bin (mjp_in_call f) hooks fm ms g ks k v.
  Proof.
    induction ms as [|m ms IH]; intros; cbn [hseq_mjp_in bin]; [reflexivity|].
    destruct (hkid_split ks) as [s ks0]. rewrite IH. destruct (bin (mjp_in_call f) hooks fm ms g ks0 (S k) v) as [[g1 ks1] r1].
    reflexivity.
  Qed.
  Lemma seq_mjp_in_bin f hooks fm ms : forall ks k v,
    seq_mjp_in f hooks fm ms ks k v = vbin (mjp_in_vcall f) hooks fm ms ks k v.
  Proof.
    induction ms as [|m ms IH]; intros; cbn [seq_mjp_in vbin]; [reflexivity|].
    destruct (kid_split ks) as [s ks0]. rewrite IH. destruct (vbin (mjp_in_vcall f) hooks fm ms ks0 (S k) v) as [ks1 r1].
    reflexivity.
  Qed.
  Lemma hseq_mjp_w_bw f hooks fm ms : forall g ks k v,
    hseq_mjp_w f hooks fm ms g ks k v = bw (mjp_in_call f) (mjp_w_call f) hooks fm ms g ks k v.
  Proof.
    induction ms as [|m ms IH]; intros; cbn [hseq_mjp_w bw]; [reflexivity|].
    destruct (hkid_split ks) as [s ks0]. rewrite IH.
    destruct (bw (mjp_in_call f) (mjp_w_call f) hooks fm ms g ks0 (S k) v) as [[g1 ks1] r1]. reflexivity.
  Qed.
  Lemma seq_mjp_w_bw f hooks fm ms : forall ks k v,
    seq_mjp_w f hooks fm ms ks k v = vbw (mjp_in_vcall f) (mjp_w_vcall f) hooks fm ms ks k v.
  Proof.
    induction ms as [|m ms IH]; intros; cbn [seq_mjp_w vbw]; [reflexivity|].
    destruct (kid_split ks) as [s ks0]. rewrite IH.
    destruct (vbw (mjp_in_vcall f) (mjp_w_vcall f) hooks fm ms ks0 (S k) v) as [ks1 r1]. reflexivity.
  Qed.
  Lemma mjp_in_ok f vf m : mspecO f vf m -> call_in Ro hof_opt (mjp_in_call f) (mjp_in_vcall vf) m.
  Proof.
    intros H ms k g s vs x vx y vy v vv g' s' r R Rx Ry Rv _ E.
    exact (H _ _ _ _ _ (Some y) (Some vy) _ _ _ _ _ _ R Rx Ry Rv E).
  Qed.
  Lemma mjp_w_ok f vf m : mspecO f vf m -> call_w Ro hof_opt Rr HT (mjp_w_call f) (mjp_w_vcall vf) m.
  Proof.
    intros H ms k g s vs x vx y vy v vv g' s' r R Rx Ry Rv _ E. unfold mjp_w_call in E.
    eapply Call_w. eapply (H _ _ _ _ _ (Some y) (Some vy)); eauto.
  Qed.

  Lemma bind_nn {A} (r : res A) (f : A -> res (option T)) : (forall a, f a <> Ok None) -> bind r f <> Ok None.
  Proof. destruct r; cbn; [auto|discriminate]. Qed.
  Lemma hmaxpool_jacobian_ok cfg g s vs x vx val vval a w g' s' r : Rs g s vs -> Rr g x vx -> Ro g val vval ->
    hmaxpool_jacobian cg cfg g s x val w = (g', s', r) ->
    CallO g s x a w g' s' r (maxpool_jacobian cfg vs vx vval w).
  Proof.
    intros R Rx Rv. unfold hmaxpool_jacobian, maxpool_jacobian.
    destruct w; [|injection 1 as <- <- <-; apply none_call; auto using keeps_refl, grows_refl; discriminate..].
    destruct (hensure (MaxPool cfg) g s x val) as [[g1 s1] r1] eqn:E1.
    destruct (hensure_ok cg _ _ _ _ _ _ _ _ _ _ _ R Rx Rv E1) as (K1 & R1 & Rr1 & G1).
    destruct (ensure (MaxPool cfg) vs vx vval) as [vs1 vr1]. cbn [fst snd] in *.
    unfold hthen. destruct (fresh_opt _ _) as [g2 r2] eqn:E2. injection 1 as <- <- <-.
    eapply fresh_call; eauto.
    - intros _. destruct vr1; cbn; [apply some_nn|discriminate].
    - rewrite (Rs_idx _ _ _ R1), (Rr_rd _ _ _ (keeps_Rr _ _ _ _ K1 Rx)) in E2.
      rewrite <- E2. f_equal. destruct r1 as [y|e], vr1 as [vy|e']; cbn in Rr1 |- *; try tauto; [|congruence].
      now rewrite (Rr_rd _ _ _ Rr1).
  Qed.
  Lemma hskip_jacobian_ok F jacF vjacF g s vs x vx val vval a w g' s' r :
    (forall g s vs val vval g' s' r, Rs g s vs -> Rr g x vx -> Ro g val vval -> jacF g s val = (g', s', r) ->
       CallO g s x HN w g' s' r (vjacF vs vval)) ->
    Rs g s vs -> Rr g x vx -> Ro g val vval -> hskip_jacobian cg F jacF g s x val w = (g', s', r) ->
    CallO g s x a w g' s' r (skip_jacobian F vjacF vs vx vval w).
  Proof.
    intros HF R Rx Rv. unfold hskip_jacobian, skip_jacobian.
    destruct (jacF g (h_kid s) val) as [[g1 k1] r1] eqn:E1.
    destruct (HF _ _ _ _ _ _ _ _ (Rs_kid _ _ _ R) Rx Rv E1) as (K1 & R1 & Rr1 & G1 & O1).
    destruct (vjacF (st_kid vs) vval) as [vk1 vr1]. cbn [fst snd] in *.
    pose proof (Rs_set _ _ _ _ _ (keeps_Rs _ _ _ _ K1 R) R1) as Rf.
    pose proof (skip_grows _ _ _ _ _ K1 G1) as Gf. pose proof (keeps_Rr _ _ _ _ K1 Rx) as Rx1.
    rewrite (Rr_rd _ _ _ Rx1).
    destruct r1 as [j|e], vr1 as [vj|e']; cbn in Rr1; try tauto; cbn [bind];
      [|injection 1 as <- <- <-; now apply raise_call].
    destruct (size 0 vx) as [b|e]; cbn [bind]; [|injection 1 as <- <- <-; now apply raise_call].
    destruct (numel0 vx) as [ll|e]; cbn [bind]; [|injection 1 as <- <- <-; now apply raise_call].
    destruct (hensure (Skip F) g1 (hset_kid s k1) x val) as [[g2 s2] r2] eqn:E2.
    destruct (hensure_ok cg _ _ _ _ _ _ _ _ _ _ _ Rf Rx1 (keeps_Ro _ _ _ _ K1 Rv) E2) as (K2 & R2 & Rr2 & G2).
    destruct (ensure (Skip F) (set_kid vs vk1) vx vval) as [vs2 vr2]. cbn [fst snd] in *.
    destruct (fresh_opt _ _) as [g3 r3] eqn:E3. injection 1 as <- <- <-.
    pose proof (k_len _ _ _ K1). pose proof (k_len _ _ _ K2).
    eapply fresh_call; [exact (keeps_trans _ _ _ _ K1 K2)|exact R2| | |].
    - intros l Hl. apply G2 in Hl as [Hl|]; [|right; lia]. apply in_app_or in Hl as [Hl|Hl];
        [|left; apply in_or_app; auto]. apply Gf in Hl as [|]; [auto|right; lia].
    - intros ->. repeat (apply bind_nn; intros ?). discriminate.
    - rewrite <- E3. f_equal. rewrite (Rr_rd _ _ _ (keeps_Rr _ _ _ _ K2 Rx1)).
      assert (Ej : option_map (rd g2) j = vj).
      { destruct j as [j|], vj as [vj|]; cbn in *; try tauto. f_equal. exact (Rr_rd _ _ _ (keeps_Rr _ _ _ _ K2 Rr1)). }
      destruct r2 as [q|e], vr2 as [vq|e']; cbn in Rr2 |- *; try tauto; [|congruence].
      destruct w; subst vj; destruct j; reflexivity.
  Qed.

  Lemma hmjp_ok : forall m, answers m -> mspecO (hmjp cg) mjp m.
  Proof.
    fix IH 1. intros m A g s vs x vx val vval a va w g' s' r R Rx Rv Ra. destruct m as [l|cfg|hooks ms|F]; cbn [hmjp mjp].
    - destruct (hleaf_mjp g l x val a w) as [g1 r1] eqn:E. injection 1 as <- <- <-.
      eapply leaf_mjp_call; eauto; destruct l; auto.
    - destruct a as [a|], va as [va|]; cbn in Ra; try contradiction; [|now apply hmaxpool_jacobian_ok].
      destruct w; [|injection 1 as <- <- <-; apply none_call; auto using keeps_refl, grows_refl; discriminate..].
      destruct (hensure (MaxPool cfg) g s x val) as [[g1 s1] r1] eqn:E1.
      destruct (hensure_ok cg _ _ _ _ _ _ _ _ _ _ _ R Rx Rv E1) as (K1 & R1 & Rr1 & G1).
      destruct (ensure (MaxPool cfg) vs vx vval) as [vs1 vr1]. cbn [fst snd] in *.
      unfold hthen. destruct (fresh_opt _ _) as [g2 r2] eqn:E2. injection 1 as <- <- <-.
      eapply fresh_call; eauto.
      + intros _. destruct vr1; cbn; [apply some_nn|discriminate].
      + rewrite (Rs_idx _ _ _ R1), (Rr_rd _ _ _ (keeps_Rr _ _ _ _ K1 Rx)), (Rr_rd _ _ _ (keeps_Rr _ _ _ _ K1 Ra)) in E2.
        rewrite <- E2. f_equal. destruct r1 as [y|e], vr1 as [vy|e']; cbn in Rr1 |- *; try tauto; [|congruence].
        now rewrite (Rr_rd _ _ _ Rr1).
    - destruct (wrt_ok w) eqn:W; [|injection 1 as <- <- <-; apply raise_call; auto using keeps_refl, grows_refl].
      destruct (hensure (Seq hooks ms) g s x val) as [[g0 s1] r0] eqn:E0.
      destruct (hensure_ok cg _ _ _ _ _ _ _ _ _ _ _ R Rx Rv E0) as (K0 & R0 & Rr0 & G0).
      destruct (ensure (Seq hooks ms) vs vx vval) as [vs1 vr0]. cbn [fst snd] in *.
      destruct r0 as [y|e], vr0 as [vy|e']; cbn in Rr0; try tauto; cbn [bind];
        [|injection 1 as <- <- <-; now apply raise_call].
      (* the matrix that is propagated *)
      assert (X : exists g1 r1 vr1,
        match a with
        | Some mt => (g0, Ok mt)
        | None => fresh g0 match shape (rd g0 y) with
                           | [] => Raise IndexError
                           | b :: sh => Ok (eye_repeat b (numel sh))
                           end
        end = (g1, r1) /\
        match va with
        | Some mt => Ok mt
        | None => match shape vy with [] => Raise IndexError | b :: sh => Ok (eye_repeat b (numel sh)) end
        end = vr1 /\ keeps g0 g1 /\ RR (Rr g1) r1 vr1 /\
        (forall q, r1 = Ok q -> argok g g0 g1 (hof_opt a) (HT q))).
      { destruct a as [a|], va as [va|]; cbn in Ra; try contradiction.
        - do 3 eexists. split; [reflexivity|]. split; [reflexivity|]. split; [apply keeps_refl|].
          split; [exact (keeps_Rr _ _ _ _ K0 Ra)|]. intros q [= <-]. left. split; [auto|]. now apply (Rr_bound' g a va).
        - rewrite (Rr_rd _ _ _ Rr0). destruct (fresh g0 _) as [g1 r1] eqn:E1.
          destruct (fresh_ok _ _ _ _ E1) as (K1 & R1 & O1). do 3 eexists. split; [reflexivity|]. split; [reflexivity|].
          split; [auto|]. split; [auto|]. intros q Hq. destruct (O1 q Hq) as (E & L & P). right. exists q.
          split; [auto|]. split; [lia|auto]. }
      destruct X as (g1 & r1 & vr1 & -> & -> & K1 & Rr1 & O1).
      pose proof (k_len _ _ _ K0) as Le0. pose proof (k_len _ _ _ K1) as Le1.
      pose proof (keeps_trans _ _ _ _ K0 K1) as K01. pose proof (keeps_Rs _ _ _ _ K1 R0) as R1.
      assert (G1 : grows g g1 (locs s ++ [rl x]) (locs s1)).
      { intros l Hl. apply G0 in Hl as [|]; [auto|right; lia]. }
      destruct r1 as [mt|e], vr1 as [vmt|e']; cbn in Rr1; try tauto; cbn [bind];
        [|injection 1 as <- <- <-; now apply raise_call].
      specialize (O1 _ eq_refl).
      assert (Fm : Forall (mspecO (hmjp cg) mjp) ms).
      { revert A. clear - IH. induction ms as [|m ms IHm]; cbn; [constructor|]. intros [A1 A2]. constructor; auto. }
      assert (FmI : Forall (call_in Ro hof_opt (mjp_in_call (hmjp cg)) (mjp_in_vcall mjp)) ms).
      { revert Fm. apply Forall_impl. apply mjp_in_ok. }
      assert (FmW : Forall (fun m => call_in Ro hof_opt (mjp_in_call (hmjp cg)) (mjp_in_vcall mjp) m /\
                                     call_w Ro hof_opt Rr HT (mjp_w_call (hmjp cg)) (mjp_w_vcall mjp) m) ms).
      { revert Fm. apply Forall_impl. intros m H. split; [now apply mjp_in_ok|now apply mjp_w_ok]. }
      clear IH A Fm.
      assert (NHT : hof_opt (Some mt) <> HN) by discriminate.
      assert (Rmt : Ro g1 (Some mt) (Some vmt)) by exact Rr1.
      assert (B0 : forall l, In l (locs s1) -> l < len g0) by apply R0.
      destruct w; try discriminate W.
      + rewrite hseq_mjp_in_bin. destruct (bin _ _ _ _ _ _ _ _) as [[g2 ks2] r2] eqn:E2. injection 1 as <- <- <-.
        destruct (bin_ok cg Ro hof_opt Ro_bound' _ _ _ _ _ _ FmI _ _ _ _ _ _ _ _ _ (Rs_kids _ _ _ R1) (Rs_fm _ _ _ R1)
                    Rmt NHT E2) as (K2 & Rk2 & Rr2 & G2 & O2).
        rewrite seq_mjp_in_bin. destruct (vbin _ _ _ _ _ _ _) as [vks2 vr2]. cbn [fst snd] in *.
        destruct (back_state g g1 g2 s s1 vs1 x ks2 vks2 K01 R1 G1 K2 Rk2 G2) as (Kf & Rf & Gf & Df).
        split; [auto|]. split; [auto|]. split; [auto|]. split; [auto|].
        intros q Hq. destruct (O2 _ Hq) as [Nq O]. split; [auto|].
        eapply outv_argok; [exact K0|exact K1|exact O1|exact O|exact K2| |].
        * intros l Hl. left. apply locs_mk in Hl. rewrite in_app_iff. tauto.
        * intros l Hl. apply Df in Hl as [Hl|]; [auto|right; lia].
      + rewrite hseq_mjp_w_bw. destruct (bw _ _ _ _ _ _ _ _ _) as [[g2 ks2] r2] eqn:E2.
        destruct (bw_ok cg Ro hof_opt Ro_mono' _ _ Rr HT Rr_mono' _ _ _ _ _ _ FmW _ _ _ _ _ _ _ _ _
                    (Rs_kids _ _ _ R1) (Rs_fm _ _ _ R1) Rmt NHT E2) as (K2 & Rk2 & Rr2 & G2 & O2).
        rewrite seq_mjp_w_bw. destruct (vbw _ _ _ _ _ _ _ _) as [vks2 vr2]. cbn [fst snd] in *.
        destruct (fresh_opt _ _) as [g3 r3] eqn:E3. injection 1 as <- <- <-.
        destruct (back_state g g1 g2 s s1 vs1 x ks2 vks2 K01 R1 G1 K2 Rk2 G2) as (Kf & Rf & Gf & Df).
        eapply fresh_call; eauto; [discriminate|]. rewrite <- E3. f_equal.
        destruct r2 as [[ws2 v2]|e], vr2 as [[vws2 vv2]|e']; cbn in Rr2 |- *; try tauto; [|congruence].
        destruct Rr2 as [Rw _]. cbn in Rw. rewrite (rd_list _ _ _ Rw). destruct Rw; reflexivity.
    - destruct a as [a|], va as [va|]; cbn in Ra; try contradiction.
      2: { intros E. eapply hskip_jacobian_ok; [|exact R|exact Rx|exact Rv|exact E].
           clear - IH A. intros g s vs val vval g' s' r R Rx Rv E.
           exact (IH F A g s vs x vx val vval None None w g' s' r R Rx Rv I E). }
      rewrite (Rr_rd _ _ _ Rx). destruct (numel0 vx) as [ll|e]; cbn [bind];
        [|injection 1 as <- <- <-; apply raise_call; auto using keeps_refl, grows_refl].
      pose proof (hval_tail_ok g ll val vval Rv) as Rt.
      destruct (hval_tail ll val) as [t|e], (val_tail ll vval) as [vt|e']; cbn in Rt; try tauto; cbn [bind];
        [|injection 1 as <- <- <-; apply raise_call; auto using keeps_refl, grows_refl].
      destruct (hslice_from_ok g 2 ll a va Ra) as [Rs1 Ls1].
      destruct (hslice_from 2 ll a) as [b|e], (slice_from n0 2 ll va) as [vb|e']; cbn in Rs1; try tauto; cbn [bind];
        [|injection 1 as <- <- <-; apply raise_call; auto using keeps_refl, grows_refl].
      destruct (hmjp cg F g (h_kid s) x t (Some b) w) as [[g1 k1] r1] eqn:E1.
      destruct (IH F A _ _ _ _ _ _ _ (Some b) (Some vb) _ _ _ _ (Rs_kid _ _ _ R) Rx Rt Rs1 E1) as (K1 & R1 & Rr1 & G1 & O1).
      destruct (mjp F (st_kid vs) vx vt (Some vb) w) as [vk1 vr1]. cbn [fst snd] in *.
      pose proof (Rs_set _ _ _ _ _ (keeps_Rs _ _ _ _ K1 R) R1) as Rf.
      pose proof (skip_grows _ _ _ _ _ K1 G1) as Gf.
      destruct w.
      + destruct (fresh_opt _ _) as [g2 r2] eqn:E2. injection 1 as <- <- <-.
        eapply fresh_call; eauto.
        * intros _. repeat (apply bind_nn; intros ?). discriminate.
        * rewrite <- E2. f_equal. rewrite (Rr_rd _ _ _ (keeps_Rr _ _ _ _ K1 Ra)).
          destruct r1 as [[q|]|e], vr1 as [[vq|]|e']; cbn in Rr1 |- *; try tauto; [|congruence].
          now rewrite (Rr_rd _ _ _ Rr1).
      + injection 1 as <- <- <-. split; [auto|]. split; [auto|].
        split; [cbn; destruct vr1; exact Rr1|]. split; [auto|]. intros q Hq. destruct (O1 q Hq) as [_ O].
        split; [discriminate|]. apply outv_arg with (a := HT b); [discriminate|]. eapply outv_more; [exact O|].
        intros l Hl. apply locs_set in Hl as [Hl|]; auto. right. now apply R.
      + injection 1 as <- <- <-. destruct r1 as [q|e], vr1 as [vq|e']; cbn in Rr1 |- *; try tauto.
        * apply none_call; auto. discriminate.
        * apply raise_call; auto.
  Qed.

  (** *** jacobian *)
  Definition jspecJ (m : module K) : Prop := forall g s vs x vx val vval w g' s' r,
    Rs g s vs -> Rr g x vx -> Ro g val vval -> hjacobian cg m g s x val w = (g', s', r) ->
    CallO g s x HN w g' s' r (jacobian m vs vx vval w).
  Lemma hjacobian_ok m : answers m -> jspecJ m.
  Proof.
    intros A g s vs x vx val vval w g' s' r R Rx Rv. destruct m as [l|cfg|hooks ms|F]; unfold hjacobian, jacobian.
    - destruct (hleaf_jacobian g l x val w) as [g1 r1] eqn:E. injection 1 as <- <- <-.
      eapply leaf_jacobian_call; eauto; destruct l; auto.
    - now apply hmaxpool_jacobian_ok.
    - intros E. exact (hmjp_ok (Seq hooks ms) A g s vs x vx val vval None None w g' s' r R Rx Rv I E).
    - intros E. eapply hskip_jacobian_ok; [|exact R|exact Rx|exact Rv|exact E].
      clear - A CR. intros g s vs val vval g' s' r R Rx Rv E.
      exact (hmjp_ok F A g s vs x vx val vval None None w g' s' r R Rx Rv I E).
  Qed.
End StorageBack.
