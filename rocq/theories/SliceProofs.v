(** Slices: proofs. *)
From Coq Require Import List Arith ZArith Lia Bool.
From Verif Require Import Scalar Sums Tensor TensorLemmas Conv Abstract Simple LinearLayer ConvLayer PoolLayer Module Spec Domain Jac TreeBase StateCoh StateSim Leaves
  Trees Calls ValArg Frozen History Params Slice.
Import ListNotations.
Local Open Scope nat_scope.
Local Open Scope list_scope.

(** *** ranges of lists *)
Section Lists.
  Lemma nth_firstn {A} n : forall (l : list A) p, nth_error (firstn n l) p = if p <? n then nth_error l p else None.
  Proof.
    induction n as [|n IH]; intros l p; [now destruct p|]. destruct l as [|a l]; [cbn [firstn]; destruct p; cbn [nth_error]; now destruct (Nat.ltb _ _)|].
    destruct p as [|p]; auto. cbn [firstn nth_error]. now rewrite IH.
  Qed.
  Lemma nth_skipn {A} n : forall (l : list A) p, nth_error (skipn n l) p = nth_error l (n + p).
  Proof. induction n as [|n IH]; intros l p; auto. destruct l; cbn; auto. now destruct p. Qed.
  Lemma nth_sub {A} (r : range) (l : list A) p : nth_error (sub r l) p = if p <? snd r then nth_error l (fst r + p) else None.
  Proof. unfold sub. rewrite nth_firstn. destruct (_ <? _); auto. apply nth_skipn. Qed.
  Lemma sub_length {A} (r : range) (l : list A) : length (sub r l) = Nat.min (snd r) (length l - fst r).
  Proof. unfold sub. now rewrite firstn_length, skipn_length. Qed.
  Lemma nth_paste {A} i (new l : list A) p : length new <= length l - i ->
    nth_error (paste i new l) p = if (i <=? p) && (p <? i + length new) then nth_error new (p - i) else nth_error l p.
  Proof.
    intros L. unfold paste. destruct (Nat.leb_spec i p) as [G|G].
    - destruct (Nat.le_gt_cases i (length l)) as [E|E].
      + rewrite nth_error_app2; rewrite firstn_length_le by auto; [|lia]. destruct (Nat.ltb_spec p (i + length new)) as [Q|Q]; cbn [andb].
        * rewrite nth_error_app1 by lia. reflexivity.
        * rewrite nth_error_app2 by lia. rewrite nth_skipn. f_equal. lia.
      + assert (length new = 0) by lia. destruct new; [|discriminate]. cbn [length app]. rewrite Nat.add_0_r.
        destruct (Nat.ltb_spec p i); [lia|]. cbn [andb]. rewrite skipn_all2, app_nil_r by lia. now rewrite firstn_all2 by lia.
    - cbn [andb]. destruct (Nat.le_gt_cases (length l) p) as [E|E].
      + rewrite (proj2 (nth_error_None l p)) by lia. apply nth_error_None. rewrite !app_length, firstn_length, skipn_length. lia.
      + rewrite nth_error_app1 by (rewrite firstn_length; lia). rewrite nth_firstn. now destruct (Nat.ltb_spec p i); [|lia].
  Qed.
  Lemma paste_length {A} i (new l : list A) : length new <= length l - i -> length (paste i new l) = length l.
  Proof. intros L. unfold paste. rewrite !app_length, firstn_length, skipn_length. lia. Qed.
  Lemma list_ext {A} (l l' : list A) : (forall p, nth_error l p = nth_error l' p) -> l = l'.
  Proof.
    revert l'. induction l as [|a l IH]; intros [|a' l'] E; auto; try (specialize (E 0); discriminate).
    pose proof (E 0) as E0. injection E0 as ->. f_equal. apply IH. intros p. apply (E (S p)).
  Qed.
  Lemma sub_paste_same {A} (r : range) (new l : list A) : length new = length (sub r l) -> sub r (paste (fst r) new l) = new.
  Proof.
    intros L. pose proof (sub_length r l) as Q. apply list_ext. intros p. rewrite nth_sub, nth_paste by lia.
    destruct (Nat.ltb_spec p (snd r)) as [G|G].
    - destruct (Nat.leb_spec (fst r) (fst r + p)); [|lia]. cbn [andb]. destruct (Nat.ltb_spec (fst r + p) (fst r + length new)) as [E|E].
      + f_equal. lia.
      + rewrite (proj2 (nth_error_None new p)) by lia. apply nth_error_None. lia.
    - symmetry. apply nth_error_None. lia.
  Qed.
End Lists.

Section Proofs.
  Context {K} `{CR : CRing K}.
  Notation T := (tensor K).
  Implicit Types (ms : list (module K)) (rs : list range) (W : shared K).

  Lemma cleans_nth ms : forall ks, cleans clean ms ks <-> length ks = length ms /\ forall p m k, nth_error ms p = Some m -> nth_error ks p = Some k -> clean m k.
  Proof.
    induction ms as [|m ms IH]; intros [|k ks]; cbn [cleans length].
    - split; auto. split; auto. intros [|p]; discriminate.
    - split; [contradiction|intros [E _]; discriminate].
    - split; [contradiction|intros [E _]; discriminate].
    - rewrite IH. split.
      + intros (C & E & R). split; [lia|]. intros [|p] m' k' E1 E2; [cbn in *; congruence|apply (R p); auto].
      + intros (E & R). split; [apply (R 0); auto|]. split; [lia|]. intros p. apply (R (S p)).
  Qed.
  (** the layers' states are those of these layers *)
  Definition sound ms rs W : Prop := length (sh_fms W) = length rs /\ cleans clean ms (sh_kids W).
  Lemma fresh_sound ms rs : sound ms rs (fresh ms rs).
  Proof. split; [apply map_length|]. cbn [sh_kids fresh]. apply (proj2 (init_clean (Seq true ms))). Qed.
  Lemma view_clean ms rs W q : sound ms rs W -> clean (net ms (nth q rs (0, 0))) (view rs W q).
  Proof.
    intros [_ C]. split; [reflexivity|]. cbn [view st_kids]. apply cleans_nth in C as [L C]. apply cleans_nth.
    split; [now rewrite !sub_length, L|]. intros p m k. rewrite !nth_sub. destruct (_ <? _); [|discriminate]. apply C.
  Qed.
  Lemma step_kids ms rs W q c : sound ms rs W ->
    length (st_kids (fst (perform (net ms (nth q rs (0, 0))) (view rs W q) c))) = length (sub (nth q rs (0, 0)) (sh_kids W)).
  Proof.
    intros So. pose proof (perform_clean _ _ c (view_clean ms rs W q So)) as [_ C]. apply cleans_nth in C as [L _]. rewrite L.
    destruct So as [_ C]. apply cleans_nth in C as [L' _]. now rewrite !sub_length, L'.
  Qed.
  Lemma step_sound ms rs W qc : sound ms rs W -> sound ms rs (sh_step ms rs W qc).
  Proof.
    intros So. pose proof (step_kids ms rs W (fst qc) (snd qc) So) as Lk.
    pose proof (perform_clean _ _ (snd qc) (view_clean ms rs W (fst qc) So)) as [_ C]. destruct So as [Lf Ck].
    unfold sh_step. set (s' := fst (perform _ _ _)) in *. split.
    - cbn [sh_fms]. rewrite map_length, !combine_length, seq_length. lia.
    - cbn [sh_kids]. apply cleans_nth in C as [L C], Ck as [L' Ck]. pose proof (sub_length (nth (fst qc) rs (0, 0)) (sh_kids W)) as Q.
      apply cleans_nth. split; [rewrite paste_length; auto; lia|]. intros p m k Em. rewrite nth_paste by lia.
      destruct (_ && _) eqn:G; [|now apply Ck]. intros Ek. apply (C (p - fst (nth (fst qc) rs (0, 0)))); auto.
      apply andb_true_iff in G as [G1 G2]. apply Nat.leb_le in G1. apply Nat.ltb_lt in G2.
      rewrite nth_sub. destruct (Nat.ltb_spec (p - fst (nth (fst qc) rs (0, 0))) (snd (nth (fst qc) rs (0, 0)))); [|lia].
      rewrite <- Em. f_equal. lia.
  Qed.
  Lemma run_sound ms rs cs : forall W, sound ms rs W -> sound ms rs (sh_run ms rs W cs).
  Proof. unfold sh_run. induction cs as [|c cs IH]; intros W So; auto. cbn [fold_left]. apply IH, step_sound, So. Qed.

  (** *** the Sequential that is called moves as it would alone *)
  Lemma nth_map_fms (f : nat * range * list T -> list T) rs fms q : q < length rs -> length fms = length rs ->
    nth q (map f (combine (combine (seq 0 (length rs)) rs) fms)) [] = f (q, nth q rs (0, 0), nth q fms []).
  Proof.
    intros Hq L. rewrite (nth_indep _ [] (f (0, (0, 0), []))) by (rewrite map_length, !combine_length, seq_length; lia).
    rewrite map_nth. rewrite combine_nth by (rewrite combine_length, seq_length; lia).
    pose proof (combine_nth (seq 0 (length rs)) rs q 0 (0, 0) (seq_length _ _)) as E. unfold range in *. rewrite E. now rewrite seq_nth by lia.
  Qed.
  Lemma own_view ms rs W q c : sound ms rs W -> q < length rs -> view rs (sh_step ms rs W (q, c)) q = fst (perform (net ms (nth q rs (0, 0))) (view rs W q) c).
  Proof.
    intros So Hq. pose proof (step_kids ms rs W q c So) as Lk. pose proof (perform_clean _ _ c (view_clean ms rs W q So)) as [I _].
    unfold sh_step. cbn [fst snd]. set (s' := fst (perform _ _ _)) in *. unfold view at 1. cbn [sh_fms sh_kids].
    rewrite nth_map_fms by (auto; apply So). cbn [fst snd]. rewrite Nat.eqb_refl. rewrite sub_paste_same by exact Lk.
    destruct s' as [fm i ks]. cbn in I. subst i. reflexivity.
  Qed.
  (** *** the others get a longer list of feature maps, and their layers outside the range keep their states *)
  Lemma other_view ms rs W q q' c : sound ms rs W -> q < length rs -> q' <> q ->
    (exists out, st_fm (view rs (sh_step ms rs W (q', c)) q) = st_fm (view rs W q) ++ out) /\
    length (st_kids (view rs (sh_step ms rs W (q', c)) q)) = length (st_kids (view rs W q)) /\
    forall p, let n := fst (nth q rs (0, 0)) + p in
      ~ (fst (nth q' rs (0, 0)) <= n < fst (nth q' rs (0, 0)) + snd (nth q' rs (0, 0))) ->
      nth_error (st_kids (view rs (sh_step ms rs W (q', c)) q)) p = nth_error (st_kids (view rs W q)) p.
  Proof.
    intros So Hq Ne. pose proof (step_kids ms rs W q' c So) as Lk. unfold sh_step. cbn [fst snd]. set (s' := fst (perform _ _ _)) in *.
    cbn [view st_fm st_kids sh_fms sh_kids]. rewrite sub_length in Lk. split; [|split].
    - rewrite nth_map_fms by (auto; apply So). cbn [fst snd]. destruct (Nat.eqb_spec q q'); [congruence|]. eauto.
    - rewrite !sub_length, paste_length; auto. lia.
    - intros p Out. set (n := fst (nth q rs (0, 0)) + p) in *. rewrite !nth_sub. destruct (_ <? _); auto. rewrite nth_paste by lia. fold n.
      destruct (Nat.leb_spec (fst (nth q' rs (0, 0))) n); auto. cbn [andb]. destruct (Nat.ltb_spec n (fst (nth q' rs (0, 0)) + length (st_kids s'))); auto. lia.
  Qed.
  Lemma coh_kids ms : forall ks ks' fm (x : T), coh_seq coh ms ks fm x -> length ks' = length ks ->
    (forall p m, nth_error ms p = Some m -> stateless m = true \/ nth_error ks' p = nth_error ks p) -> coh_seq coh ms ks' fm x.
  Proof.
    induction ms as [|m ms IH]; intros ks ks' fm x C L E; cbn [coh_seq] in *.
    - destruct C as [-> R]. destruct ks'; [auto|discriminate].
    - destruct C as (k & kt & fm' & y & -> & -> & F & Ck & C). destruct ks' as [|k' kt']; [discriminate|].
      exists k', kt', fm', y. repeat split; auto.
      + destruct (E 0 m eq_refl) as [G|G]; [destruct m; try discriminate; exact I|]. cbn in G. now injection G as ->.
      + apply (IH kt); auto. intros p m' Em. exact (E (S p) m' Em).
  Qed.

  (** Sequentials that share only layers without memory *)
  Definition share_plain ms (r r' : range) : Prop := forall p m, nth_error ms p = Some m ->
    fst r <= p < fst r + snd r -> fst r' <= p < fst r' + snd r' -> stateless m = true.
  Lemma other_keeps ms rs W q q' c (x : T) : sound ms rs W -> q < length rs -> q' <> q -> share_plain ms (nth q rs (0, 0)) (nth q' rs (0, 0)) ->
    coh (net ms (nth q rs (0, 0))) (view rs W q) x -> coh (net ms (nth q rs (0, 0))) (view rs (sh_step ms rs W (q', c)) q) x.
  Proof.
    intros So Hq Ne P [_ C]. destruct (other_view ms rs W q q' c So Hq Ne) as ((out & Ef) & Lk & Ek). split; [reflexivity|].
    rewrite Ef. apply coh_seq_app. apply (coh_kids _ (st_kids (view rs W q))); auto. intros p m Em. rewrite nth_sub in Em.
    destruct (Nat.ltb_spec p (snd (nth q rs (0, 0)))) as [G|G]; [|discriminate].
    set (i := fst (nth q' rs (0, 0))) in *. set (n := snd (nth q' rs (0, 0))) in *.
    destruct (Nat.le_gt_cases i (fst (nth q rs (0, 0)) + p)) as [A|A]; [destruct (Nat.le_gt_cases (i + n) (fst (nth q rs (0, 0)) + p)) as [B|B]|].
    - right. apply Ek. fold i n. lia.
    - left. apply (P (fst (nth q rs (0, 0)) + p)); auto; lia.
    - right. apply Ek. fold i n. lia.
  Qed.

  Theorem slice_forward ms rs W q x : sh_answer ms rs W (q, Forward x) = (y <- fwd (net ms (nth q rs (0, 0))) x ;; Ok (VT y)).
  Proof. unfold sh_answer, answer. cbn [fst snd perform]. now rewrite forward_pure. Qed.

  Theorem slice_none ms rs W q s s' b (x : T) c h : typed (net ms (nth q rs (0, 0))) s s' -> 0 < b -> wf x -> shape x = b :: s ->
    point c = x -> wrt_of c <> Other -> sh_answer ms rs W (q, pass_val None c) = answer (net ms (nth q rs (0, 0))) h (pass_val None c).
  Proof.
    intros Ty Hb Wx Sx Hp Hw. destruct (fwd_total _ s s' b x Ty Hb Wx Sx) as (y & Fy & _). unfold sh_answer. cbn [fst snd].
    transitivity (answer (net ms (nth q rs (0, 0))) (run (net ms (nth q rs (0, 0))) h ([] ++ Forward x :: [])) (pass_val (Some y) c)).
    - symmetry. eapply history_val; eauto.
    - eapply history_val; eauto.
  Qed.

  Theorem slice_val ms rs hist q s s' b (x y : T) cs c h : q < length rs -> typed (net ms (nth q rs (0, 0))) s s' -> 0 < b -> wf x -> shape x = b :: s ->
    fwd (net ms (nth q rs (0, 0))) x = Ok y ->
    Forall (fun qc => if fst qc =? q then point (snd qc) = x else share_plain ms (nth q rs (0, 0)) (nth (fst qc) rs (0, 0))) cs ->
    point c = x -> wrt_of c <> Other ->
    sh_answer ms rs (sh_run ms rs (fresh ms rs) (hist ++ (q, Forward x) :: cs)) (q, pass_val (Some y) c) =
    answer (net ms (nth q rs (0, 0))) h (pass_val None c).
  Proof.
    intros Hq Ty Hb Wx Sx Fy Hcs Hp Hw. unfold sh_answer. cbn [fst snd]. symmetry. eapply call_val; eauto.
    unfold sh_run. rewrite fold_left_app. change (fold_left _ hist _) with (sh_run ms rs (fresh ms rs) hist). cbn [fold_left].
    pose proof (run_sound ms rs hist _ (fresh_sound ms rs)) as So. revert So. generalize (sh_run ms rs (fresh ms rs) hist). intros W So.
    assert (C : coh (net ms (nth q rs (0, 0))) (view rs (sh_step ms rs W (q, Forward x)) q) x).
    { rewrite own_view by auto. cbn [perform fst]. now apply (typed_coh BF BPF _ s s' Ty b). }
    apply (step_sound ms rs W (q, Forward x)) in So. revert So C. generalize (sh_step ms rs W (q, Forward x)). clear W.
    induction Hcs as [|[q' c'] cs Hc Hcs IH]; intros W So C; auto. cbn [fold_left]. apply IH; [now apply step_sound|]. cbn [fst snd] in Hc.
    destruct (Nat.eqb_spec q' q) as [->|Ne].
    - rewrite own_view by auto. now apply (perform_keeps _ s s' b).
    - now apply other_keeps.
  Qed.
End Proofs.
