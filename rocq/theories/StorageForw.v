(** jvp and jmp in the storage model. *)
From Coq Require Import String Ascii List Arith ZArith Lia Bool FinFun.
From Verif Require Import Scalar Tensor Conv Abstract Simple LinearLayer ConvLayer PoolLayer Module.
From Verif Require Import TensorLemmas OpLemmas EinsumLemmas HooksSpec Loud.
From Verif Require Import Storage StorageBase StorageFwd StorageLoops StorageSum StorageJmj StorageLeaf StorageBack.
Import ListNotations.
Local Open Scope nat_scope.
Local Open Scope list_scope.

Section StorageForw.
  Context {K} `{CR : CRing K}.
  Notation T := (tensor K).
  Notation mem := (mem K).
  Implicit Types g : mem.
  Notation CallO := (Call Ro hof_opt).
  Variable cg : ref -> bool.
  Notation hforward := (hforward cg).
  Notation hensure := (hensure cg).

  (** the state of a network after a loop that runs the layers *)
  Lemma forw_state g g2 s vs (x : ref) ks2 vks2 fm2 vfm2 : Rs g s vs -> Rk g2 ks2 vks2 -> Rf g2 fm2 vfm2 ->
    grows g g2 (flat_map locs (h_kids s) ++ map rl (h_fm s) ++ [rl x]) (flat_map locs ks2 ++ map rl fm2) ->
    Rs g2 (HSt fm2 (h_idx s) ks2) (St vfm2 (st_idx vs) vks2) /\
    grows g g2 (locs s ++ [rl x]) (locs (HSt fm2 (h_idx s) ks2)) /\
    (forall l, In l (locs (HSt fm2 (h_idx s) ks2)) <-> In l (flat_map locs ks2 ++ map rl fm2)).
  Proof.
    intros R Rk2 Rf2 G2.
    assert (D : forall l, In l (locs (HSt fm2 (h_idx s) ks2)) <-> In l (flat_map locs ks2 ++ map rl fm2)).
    { intros l. rewrite locs_mk, in_app_iff. tauto. }
    split; [rewrite (Rs_idx _ _ _ R); now apply Rs_mk|]. split; [|exact D].
    intros l Hl. apply D, G2 in Hl as [Hl|]; [|auto]. left. rewrite !in_app_iff in *. rewrite locs_eq. tauto.
  Qed.
  Lemma sumok_outv g g2 a L q : keeps g g2 -> sumok g g2 None q L -> outv g a Weight g2 L (hof_opt q).
  Proof.
    intros Kp So. destruct q as [q|]; cbn; [|apply outv_none]. destruct (So q eq_refl) as (B & P & O & N).
    split; cbn; [|auto]. intros l [<-|[]]. left. destruct O; [discriminate|auto].
  Qed.

  (** *** jvp *)
  Lemma hseq_jvp_in_fin f hooks ms : forall g ks x fm v,
    hseq_jvp_in cg f hooks ms g ks x fm v = fin cg (vjp_in_call f) hooks ms g ks x fm v.
  Proof.
    induction ms as [|m ms IH]; intros; cbn [hseq_jvp_in fin]; [reflexivity|].
    destruct (hkid_split ks) as [s ks0]. destruct (hforward m g s x) as [[g1 k1] [y|e]]; [|reflexivity].
    cbv zeta. unfold vjp_in_call at 1. destruct (f m g1 k1 x (Some y) v Input) as [[g2 k2] r2].
    destruct (r <- r2;; need r) as [v2|]; [|reflexivity]. now rewrite IH.
  Qed.
  Lemma seq_jvp_in_fin f hooks ms : forall ks x fm v,
    seq_jvp_in f hooks ms ks x fm v = vfin (vjp_in_vcall f) hooks ms ks x fm v.
  Proof.
    induction ms as [|m ms IH]; intros; cbn [seq_jvp_in vfin]; [reflexivity|].
    destruct (kid_split ks) as [s ks0]. destruct (forward m s x) as [k1 [y|e]]; [|reflexivity].
    cbv zeta. unfold vjp_in_vcall at 1. destruct (f m k1 x (Some y) v Input) as [k2 r2].
    destruct (r <- r2;; need r) as [v2|]; [|reflexivity]. now rewrite IH.
  Qed.
  Definition jvp_c (f : module K -> mem -> hst -> ref -> option ref -> ref -> wrt -> mem * hst * res (option ref)) (w : wrt)
    m g s x y v := f m g s x (Some y) v w.
  Definition jvp_vc (f : module K -> st K -> T -> option T -> T -> wrt -> st K * res (option T)) (w : wrt)
    m s x y v := f m s x (Some y) v w.
  Lemma hseq_jvp_w_fsum f hooks v ms : forall g ks x fm p acc,
    hseq_jvp_w cg f hooks ms g ks x fm v p acc =
    fsum cg (fun p n => hslice 1 p (p + n) v) (jvp_c f Input) (jvp_c f Weight) hooks ms g ks x fm p acc.
  Proof.
    induction ms as [|m ms IH]; intros; cbn [hseq_jvp_w fsum]; [reflexivity|].
    destruct (hkid_split ks) as [s ks0]. destruct (hforward m g s x) as [[g1 k1] [y|e]]; [|reflexivity].
    cbv zeta. unfold jvp_c at 1.
    destruct (match acc with Some a => f m g1 k1 x (Some y) a Input | None => (g1, k1, Ok None) end) as [[g2 k2] r2].
    destruct (acc0 <- r2;; vp <- hslice 1 p (p + n_params m) v;; Ok (acc0, vp)) as [[acc0 vp]|]; [|reflexivity].
    unfold jvp_c at 1. destruct (f m g2 k2 x (Some y) vp Weight) as [[g3 k3] r3].
    destruct (match r3 with Ok new => haccumulate g3 acc0 new | Raise e => (g3, Raise e) end) as [g4 [acc4|]]; [|reflexivity].
    now rewrite IH.
  Qed.
  Lemma seq_jvp_w_fsum f hooks v ms : forall ks x fm p acc,
    seq_jvp_w f hooks ms ks x fm v p acc =
    vfsum (fun p n => slice n0 1 p (p + n) v) (jvp_vc f Input) (jvp_vc f Weight) hooks ms ks x fm p acc.
  Proof.
    induction ms as [|m ms IH]; intros; cbn [seq_jvp_w vfsum]; [reflexivity|].
    destruct (kid_split ks) as [s ks0]. destruct (forward m s x) as [k1 [y|e]]; [|reflexivity].
    cbv zeta. unfold jvp_vc at 1.
    destruct (match acc with Some a => f m k1 x (Some y) a Input | None => (k1, Ok None) end) as [k2 r2].
    destruct (acc0 <- r2;; vp <- slice n0 1 p (p + n_params m) v;; Ok (acc0, vp)) as [[acc0 vp]|]; [|reflexivity].
    unfold jvp_vc at 1. destruct (f m k2 x (Some y) vp Weight) as [k3 r3].
    destruct (new <- r3;; accumulate acc0 new) as [acc4|]; [|reflexivity]. now rewrite IH.
  Qed.
  Lemma jvp_c_ok f vf w m : mspecR f vf m -> sum_call (jvp_c f w) (jvp_vc vf w) w m.
  Proof.
    intros H g s vs x vx y vy a va g' s' r R Rx Ry Ra E.
    exact (H _ _ _ _ _ (Some y) (Some vy) _ _ _ _ _ _ R Rx Ry Ra E).
  Qed.

  Lemma hjvp_ok : forall m, answers m -> mspecR (hjvp cg) jvp m.
  Proof.
    fix IH 1. intros m A g s vs x vx val vval a va w g' s' r R Rx Rv Ra. destruct m as [l|cfg|hooks ms|F]; cbn [hjvp jvp].
    - destruct (hleaf_jvp g l x val a w) as [g1 r1] eqn:E. injection 1 as <- <- <-.
      eapply leaf_jvp_call; eauto; destruct l; auto.
    - destruct w; injection 1 as <- <- <-;
        [apply raise_call; auto using keeps_refl, grows_refl
        |apply none_call; auto using keeps_refl, grows_refl; discriminate..].
    - assert (Fm : Forall (mspecR (hjvp cg) jvp) ms).
      { revert A. clear - IH. induction ms as [|m ms IHm]; cbn; [constructor|]. intros [A1 A2]. constructor; auto. }
      assert (FmI : Forall (call_in Rr HT (vjp_in_call (hjvp cg)) (vjp_in_vcall jvp)) ms).
      { revert Fm. apply Forall_impl. apply (vjp_in_ok cg). }
      assert (FmW : Forall (fun m => sum_call (jvp_c (hjvp cg) Input) (jvp_vc jvp Input) Input m /\
                                     sum_call (jvp_c (hjvp cg) Weight) (jvp_vc jvp Weight) Weight m) ms).
      { revert Fm. apply Forall_impl. intros m H. split; now apply jvp_c_ok. }
      clear IH A Fm. assert (NHT : HT a <> HN) by discriminate.
      destruct w.
      + rewrite hseq_jvp_in_fin. destruct (fin _ _ _ _ _ _ _ _ _) as [[[g2 ks2] fm2] r2] eqn:E2. injection 1 as <- <- <-.
        destruct (fin_ok cg Rr HT Rr_mono' Rr_bound' _ _ _ _ FmI _ _ _ _ _ _ _ _ _ _ _ _ _ (Rs_kids _ _ _ R) Rx
                    (Rs_fm _ _ _ R) Ra NHT E2) as (K2 & Rk2 & Rf2 & Rr2 & G2 & O2).
        rewrite seq_jvp_in_fin. destruct (vfin _ _ _ _ _ _ _) as [[vks2 vfm2] vr2]. cbn [fst snd] in *.
        destruct (forw_state g g2 s vs x ks2 vks2 fm2 vfm2 R Rk2 Rf2 G2) as (R2 & Gf & Df).
        split; [auto|]. split; [auto|]. split; [destruct r2, vr2; cbn in *; auto|]. split; [auto|].
        intros q Hq. destruct r2 as [q2|]; [|discriminate]. cbn in Hq. injection Hq as <-.
        split; [discriminate|]. destruct (O2 _ eq_refl) as [_ O]. eapply outv_more; [exact O|].
        intros l Hl. left. now apply Df.
      + rewrite hseq_jvp_w_fsum. destruct (fsum _ _ _ _ _ _ _ _ _ _ _ _) as [[[g2 ks2] fm2] r2] eqn:E2. injection 1 as <- <- <-.
        assert (Hget : forall g, Rr g a va -> forall p n,
          RR (Rr g) (hslice 1 p (p + n) a) (slice n0 1 p (p + n) va) /\
          (forall q, hslice 1 p (p + n) a = Ok q -> rl q = rl a)).
        { intros g0 R0 p n. now apply hslice_ok. }
        destruct (fsum_ok cg a va _ _ Hget _ _ _ _ hooks ms FmW _ _ _ _ _ _ _ _ None None _ _ _ _ (Rs_kids _ _ _ R) Rx
                    (Rs_fm _ _ _ R) Ra I (sumok_none _ _ _ _) E2) as (K2 & Rk2 & Rf2 & Rr2 & G2 & O2).
        rewrite seq_jvp_w_fsum. destruct (vfsum _ _ _ _ _ _ _ _ _ _) as [[vks2 vfm2] vr2]. cbn [fst snd option_map] in *.
        destruct (forw_state g g2 s vs x ks2 vks2 fm2 vfm2 R Rk2 Rf2 G2) as (R2 & Gf & Df).
        split; [auto|]. split; [auto|]. split; [auto|]. split; [auto|].
        intros q Hq. split; [discriminate|]. eapply outv_more; [apply sumok_outv; [exact K2|exact (O2 _ Hq)]|].
        intros l Hl. left. now apply Df.
      + injection 1 as <- <- <-. apply raise_call; auto using keeps_refl, grows_refl.
    - rewrite (Rr_rd _ _ _ Rx). destruct (size 0 vx) as [b|e]; cbn [bind];
        [|injection 1 as <- <- <-; apply raise_call; auto using keeps_refl, grows_refl].
      destruct (numel0 vx) as [ll|e]; cbn [bind];
        [|injection 1 as <- <- <-; apply raise_call; auto using keeps_refl, grows_refl].
      pose proof (hval_tail_ok g ll val vval Rv) as Rt.
      destruct (hval_tail ll val) as [t|e], (val_tail ll vval) as [vt|e']; cbn in Rt; try tauto; cbn [bind];
        [|injection 1 as <- <- <-; apply raise_call; auto using keeps_refl, grows_refl].
      destruct (hjvp cg F g (h_kid s) x t a w) as [[g1 k1] r1] eqn:E1.
      destruct (IH F A _ _ _ _ _ _ _ _ _ _ _ _ _ (Rs_kid _ _ _ R) Rx Rt Ra E1) as (K1 & R1 & Rr1 & G1 & O1).
      destruct (jvp F (st_kid vs) vx vt va w) as [vk1 vr1]. cbn [fst snd] in *.
      pose proof (Rs_set _ _ _ _ _ (keeps_Rs _ _ _ _ K1 R) R1) as Rf.
      pose proof (skip_grows _ _ _ _ _ K1 G1) as Gf.
      destruct (fresh_opt _ _) as [g2 r2] eqn:E2. injection 1 as <- <- <-.
      eapply fresh_call; eauto.
      + intros ->. repeat (apply bind_nn; intros ?). discriminate.
      + rewrite <- E2. f_equal. rewrite (Rr_rd _ _ _ (keeps_Rr _ _ _ _ K1 Ra)), (Rr_rd _ _ _ (keeps_Rr _ _ _ _ K1 Rx)).
        destruct r1 as [[q|]|e], vr1 as [[vq|]|e']; cbn in Rr1 |- *; try contradiction; try congruence;
          destruct w; try reflexivity; now rewrite (Rr_rd _ _ _ Rr1).
  Qed.

  (** *** jmp *)
  Lemma hseq_jmp_in_fin f hooks ms : forall g ks x fm v,
    hseq_jmp_in cg f hooks ms g ks x fm v = fin cg (mjp_in_call f) hooks ms g ks x fm v.
  Proof.
    induction ms as [|m ms IH]; intros; cbn [hseq_jmp_in fin]; [reflexivity|].
    destruct (hkid_split ks) as [s ks0]. destruct (hforward m g s x) as [[g1 k1] [y|e]]; [|reflexivity].
    cbv zeta. unfold mjp_in_call at 1. destruct (f m g1 k1 x (Some y) v Input) as [[g2 k2] [v2|]]; [|reflexivity].
    now rewrite IH.
  Qed.
  Lemma seq_jmp_in_fin f hooks ms : forall ks x fm v,
    seq_jmp_in f hooks ms ks x fm v = vfin (mjp_in_vcall f) hooks ms ks x fm v.
  Proof.
    induction ms as [|m ms IH]; intros; cbn [seq_jmp_in vfin]; [reflexivity|].
    destruct (kid_split ks) as [s ks0]. destruct (forward m s x) as [k1 [y|e]]; [|reflexivity].
    cbv zeta. unfold mjp_in_vcall at 1. destruct (f m k1 x (Some y) v Input) as [k2 [v2|]]; [|reflexivity].
    now rewrite IH.
  Qed.
  Definition jmp_c (f : module K -> mem -> hst -> ref -> option ref -> option ref -> wrt -> mem * hst * res (option ref)) (w : wrt)
    m g s x y v := f m g s x (Some y) (Some v) w.
  Definition jmp_vc (f : module K -> st K -> T -> option T -> option T -> wrt -> st K * res (option T)) (w : wrt)
    m s x y v := f m s x (Some y) (Some v) w.
  Definition jmp_getp (v : ref) p n := b <- hslice 1 p (p + n) v ;; check (Nat.eqb (rank (rix v)) 3) IndexError (Ok b).
  Definition jmp_vgetp (v : T) p n := b <- slice n0 1 p (p + n) v ;; check (Nat.eqb (rank v) 3) IndexError (Ok b).
  Lemma hseq_jmp_w_fsum f hooks v ms : forall g ks x fm p acc,
    hseq_jmp_w cg f hooks ms g ks x fm v p acc =
    fsum cg (jmp_getp v) (jmp_c f Input) (jmp_c f Weight) hooks ms g ks x fm p acc.
  Proof.
    induction ms as [|m ms IH]; intros; cbn [hseq_jmp_w fsum]; [reflexivity|].
    destruct (hkid_split ks) as [s ks0]. destruct (hforward m g s x) as [[g1 k1] [y|e]]; [|reflexivity].
    cbv zeta. unfold jmp_c at 1.
    destruct (match acc with Some a => f m g1 k1 x (Some y) (Some a) Input | None => (g1, k1, Ok None) end) as [[g2 k2] r2].
    assert (E : (acc0 <- r2;; vp <- jmp_getp v p (n_params m);; Ok (acc0, vp)) =
                (acc0 <- r2;; vp <- hslice 1 p (p + n_params m) v;;
                 check (Nat.eqb (rank (rix v)) 3) IndexError (Ok (acc0, vp)))).
    { unfold jmp_getp. destruct r2; cbn; auto. destruct (hslice 1 p (p + n_params m) v); cbn; auto.
      unfold check. now destruct (Nat.eqb _ _). }
    rewrite <- E. clear E.
    destruct (acc0 <- r2;; vp <- jmp_getp v p (n_params m);; Ok (acc0, vp)) as [[acc0 vp]|]; [|reflexivity].
    unfold jmp_c at 1. destruct (f m g2 k2 x (Some y) (Some vp) Weight) as [[g3 k3] r3].
    destruct (match r3 with Ok new => haccumulate g3 acc0 new | Raise e => (g3, Raise e) end) as [g4 [acc4|]]; [|reflexivity].
    now rewrite IH.
  Qed.
  Lemma seq_jmp_w_fsum f hooks v ms : forall ks x fm p acc,
    seq_jmp_w f hooks ms ks x fm v p acc =
    vfsum (jmp_vgetp v) (jmp_vc f Input) (jmp_vc f Weight) hooks ms ks x fm p acc.
  Proof.
    induction ms as [|m ms IH]; intros; cbn [seq_jmp_w vfsum]; [reflexivity|].
    destruct (kid_split ks) as [s ks0]. destruct (forward m s x) as [k1 [y|e]]; [|reflexivity].
    cbv zeta. unfold jmp_vc at 1.
    destruct (match acc with Some a => f m k1 x (Some y) (Some a) Input | None => (k1, Ok None) end) as [k2 r2].
    assert (E : (acc0 <- r2;; vp <- jmp_vgetp v p (n_params m);; Ok (acc0, vp)) =
                (acc0 <- r2;; vp <- slice n0 1 p (p + n_params m) v;;
                 check (Nat.eqb (rank v) 3) IndexError (Ok (acc0, vp)))).
    { unfold jmp_vgetp. destruct r2; cbn; auto. destruct (slice n0 1 p (p + n_params m) v); cbn; auto.
      unfold check. now destruct (Nat.eqb _ _). }
    rewrite <- E. clear E.
    destruct (acc0 <- r2;; vp <- jmp_vgetp v p (n_params m);; Ok (acc0, vp)) as [[acc0 vp]|]; [|reflexivity].
    unfold jmp_vc at 1. destruct (f m k2 x (Some y) (Some vp) Weight) as [k3 r3].
    destruct (new <- r3;; accumulate acc0 new) as [acc4|]; [|reflexivity]. now rewrite IH.
  Qed.
  Lemma jmp_c_ok f vf w m : mspecO f vf m -> sum_call (jmp_c f w) (jmp_vc vf w) w m.
  Proof.
    intros H g s vs x vx y vy a va g' s' r R Rx Ry Ra E.
    exact (H _ _ _ _ _ (Some y) (Some vy) (Some a) (Some va) _ _ _ _ R Rx Ry Ra E).
  Qed.

  Lemma hjmp_ok : forall m, answers m -> mspecO (hjmp cg) jmp m.
  Proof.
    fix IH 1. intros m A g s vs x vx val vval a va w g' s' r R Rx Rv Ra. destruct m as [l|cfg|hooks ms|F]; cbn [hjmp jmp].
    - destruct (hleaf_jmp g l x val a w) as [g1 r1] eqn:E. injection 1 as <- <- <-.
      eapply leaf_jmp_call; eauto; destruct l; auto.
    - destruct a as [a|], va as [va|]; cbn in Ra; try contradiction; [|now apply hmaxpool_jacobian_ok].
      destruct w; [|injection 1 as <- <- <-; apply none_call; auto using keeps_refl, grows_refl; discriminate..].
      destruct (hensure (MaxPool cfg) g s x val) as [[g1 s1] r1] eqn:E1.
      destruct (hensure_ok cg _ _ _ _ _ _ _ _ _ _ _ R Rx Rv E1) as (K1 & R1 & Rr1 & G1).
      destruct (ensure (MaxPool cfg) vs vx vval) as [vs1 vr1]. cbn [fst snd] in *.
      unfold hthen. destruct (fresh_opt _ _) as [g2 r2] eqn:E2. injection 1 as <- <- <-.
      eapply fresh_call; eauto.
      + intros _. destruct vr1; cbn; [apply some_nn|discriminate].
      + rewrite (Rs_idx _ _ _ R1), (Rr_rd _ _ _ (keeps_Rr _ _ _ _ K1 Rx)), (Rr_rd _ _ _ (keeps_Rr _ _ _ _ K1 Ra)) in E2.
        rewrite <- E2. f_equal. destruct r1 as [y|e], vr1 as [vy|e']; cbn in Rr1 |- *; try tauto; [|congruence].
        now rewrite (Rr_rd _ _ _ Rr1).
    - destruct (wrt_ok w) eqn:W; [|injection 1 as <- <- <-; apply raise_call; auto using keeps_refl, grows_refl].
      destruct a as [a|], va as [va|]; cbn in Ra; try contradiction.
      2: { intros E. exact (hjacobian_ok cg (Seq hooks ms) A g s vs x vx val vval w g' s' r R Rx Rv E). }
      assert (Fm : Forall (mspecO (hjmp cg) jmp) ms).
      { revert A. clear - IH. induction ms as [|m ms IHm]; cbn; [constructor|]. intros [A1 A2]. constructor; auto. }
      assert (FmI : Forall (call_in Ro hof_opt (mjp_in_call (hjmp cg)) (mjp_in_vcall jmp)) ms).
      { revert Fm. apply Forall_impl. apply mjp_in_ok; exact cg. }
      assert (FmW : Forall (fun m => sum_call (jmp_c (hjmp cg) Input) (jmp_vc jmp Input) Input m /\
                                     sum_call (jmp_c (hjmp cg) Weight) (jmp_vc jmp Weight) Weight m) ms).
      { revert Fm. apply Forall_impl. intros m H. split; now apply jmp_c_ok. }
      clear IH A Fm. assert (NHT : hof_opt (Some a) <> HN) by discriminate.
      destruct w; try discriminate W.
      + rewrite hseq_jmp_in_fin. destruct (fin _ _ _ _ _ _ _ _ _) as [[[g2 ks2] fm2] r2] eqn:E2. injection 1 as <- <- <-.
        destruct (fin_ok cg Ro hof_opt Ro_mono' (Ro_bound' cg) _ _ _ _ FmI _ _ _ _ _ _ _ (Some a) (Some va) _ _ _ _ (Rs_kids _ _ _ R) Rx
                    (Rs_fm _ _ _ R) Ra NHT E2) as (K2 & Rk2 & Rf2 & Rr2 & G2 & O2).
        rewrite seq_jmp_in_fin. destruct (vfin _ _ _ _ _ _ _) as [[vks2 vfm2] vr2]. cbn [fst snd] in *.
        destruct (forw_state g g2 s vs x ks2 vks2 fm2 vfm2 R Rk2 Rf2 G2) as (R2 & Gf & Df).
        split; [auto|]. split; [auto|]. split; [auto|]. split; [auto|].
        intros q Hq. destruct (O2 _ Hq) as [Nq O]. split; [auto|]. eapply outv_more; [exact O|].
        intros l Hl. left. now apply Df.
      + rewrite hseq_jmp_w_fsum. destruct (fsum _ _ _ _ _ _ _ _ _ _ _ _) as [[[g2 ks2] fm2] r2] eqn:E2. injection 1 as <- <- <-.
        assert (Hget : forall g, Rr g a va -> forall p n,
          RR (Rr g) (jmp_getp a p n) (jmp_vgetp va p n) /\ (forall q, jmp_getp a p n = Ok q -> rl q = rl a)).
        { intros g0 R0 p n. unfold jmp_getp, jmp_vgetp.
          assert (Er : rank (rix a) = rank va) by (rewrite <- (Rr_rd _ _ _ R0); unfold rank; now rewrite rd_shape).
          rewrite Er. destruct (hslice_ok g0 1 p (p + n) a va R0) as [Rq Lq].
          destruct (hslice 1 p (p + n) a) as [q|], (slice n0 1 p (p + n) va) as [vq|]; cbn in Rq |- *; try contradiction;
            [|split; [exact Rq|discriminate]].
          unfold check. destruct (Nat.eqb (rank va) 3); [|split; [reflexivity|discriminate]].
          split; [exact Rq|]. intros q0 [= <-]. now apply Lq. }
        destruct (fsum_ok cg a va _ _ Hget _ _ _ _ hooks ms FmW _ _ _ _ _ _ _ _ None None _ _ _ _ (Rs_kids _ _ _ R) Rx
                    (Rs_fm _ _ _ R) Ra I (sumok_none _ _ _ _) E2) as (K2 & Rk2 & Rf2 & Rr2 & G2 & O2).
        rewrite seq_jmp_w_fsum. destruct (vfsum _ _ _ _ _ _ _ _ _ _) as [[vks2 vfm2] vr2]. cbn [fst snd option_map] in *.
        destruct (forw_state g g2 s vs x ks2 vks2 fm2 vfm2 R Rk2 Rf2 G2) as (R2 & Gf & Df).
        split; [auto|]. split; [auto|]. split; [auto|]. split; [auto|].
        intros q Hq. split; [discriminate|]. eapply outv_more; [apply sumok_outv; [exact K2|exact (O2 _ Hq)]|].
        intros l Hl. left. now apply Df.
    - destruct a as [a|], va as [va|]; cbn in Ra; try contradiction.
      2: { intros E. exact (hjacobian_ok cg (Skip F) A g s vs x vx val vval w g' s' r R Rx Rv E). }
      rewrite (Rr_rd _ _ _ Rx). destruct (size 0 vx) as [b|e]; cbn [bind];
        [|injection 1 as <- <- <-; apply raise_call; auto using keeps_refl, grows_refl].
      destruct (numel0 vx) as [ll|e]; cbn [bind];
        [|injection 1 as <- <- <-; apply raise_call; auto using keeps_refl, grows_refl].
      pose proof (hval_tail_ok g ll val vval Rv) as Rt.
      destruct (hval_tail ll val) as [t|e], (val_tail ll vval) as [vt|e']; cbn in Rt; try tauto; cbn [bind];
        [|injection 1 as <- <- <-; apply raise_call; auto using keeps_refl, grows_refl].
      destruct (hjmp cg F g (h_kid s) x t (Some a) w) as [[g1 k1] r1] eqn:E1.
      destruct (IH F A _ _ _ _ _ _ _ (Some a) (Some va) _ _ _ _ (Rs_kid _ _ _ R) Rx Rt Ra E1) as (K1 & R1 & Rr1 & G1 & O1).
      destruct (jmp F (st_kid vs) vx vt (Some va) w) as [vk1 vr1]. cbn [fst snd] in *.
      pose proof (Rs_set _ _ _ _ _ (keeps_Rs _ _ _ _ K1 R) R1) as Rf.
      pose proof (skip_grows _ _ _ _ _ K1 G1) as Gf.
      destruct (fresh_opt _ _) as [g2 r2] eqn:E2. injection 1 as <- <- <-.
      eapply fresh_call; eauto.
      + intros ->. repeat (apply bind_nn; intros ?). discriminate.
      + rewrite <- E2. f_equal. rewrite (Rr_rd _ _ _ (keeps_Rr _ _ _ _ K1 Ra)).
        destruct r1 as [[q|]|e], vr1 as [[vq|]|e']; cbn in Rr1 |- *; try contradiction; try congruence;
          destruct w; try reflexivity; now rewrite (Rr_rd _ _ _ Rr1).
  Qed.
End StorageForw.
