(** Batch independence of the layer-by-layer diagonal approximation (diag_backprop=True). *)
From Coq Require Import String Ascii List Arith ZArith Lia Bool.
From Verif Require Import Scalar Sums Tensor TensorLemmas Conv Abstract Simple LinearLayer ConvLayer PoolLayer
  Module Spec Domain OpLemmas Jac TreeBase Leaves Trees DiagSpec DiagBack DiagExact BatchSpec Batch BatchProofs.
Import ListNotations.
Local Open Scope nat_scope.
Local Open Scope list_scope.

Section BatchDiag.
  Context {K} `{CR : CRing K}.
  Notation gt := (get (@n0 K _)).
  Notation T := (tensor K).
  Section Sel.
  Variables (b n : nat) (f : nat -> nat).
  Hypotheses (Hb : 0 < b) (Hn : 0 < n) (Hf : selects n f b).
  Notation pk := (pick n f).

  Definition dagree (k : nat) (d d' : dmetric (K := K)) : Prop := forall q i, q < n -> i < k -> d' q i = d (f q) i.

  Lemma layer_J_pick m s s' x w : typed m s s' -> batchwise m -> wf x -> shape x = b :: s ->
    w = Input \/ w = Weight /\ n_params m <> 0 ->
    Jpick n f (numel s') (match w with Input => numel s | _ => n_params m end) (layer_J m x w) (layer_J m (pk x) w).
  Proof.
    intros Ty Bw Wx Sx Hw. destruct (jacobian_pick m s s' b n f x Ty Bw Hb Wx Sx Hn Hf w st0 st0 Hw) as (J & E & E').
    unfold layer_J. rewrite E, E'. destruct Hw as [-> | [-> Np]].
    - apply (entry_JX m s s' b n f x Ty Hb Wx Sx st0 J E).
    - apply (entry_JW m s s' b n f x Ty Hb Wx Sx st0 J Np E).
  Qed.
  Lemma diag_pull_pick m k J J' d d' : Jpick n f m k J J' -> dagree m d d' -> dagree k (diag_pull m J d) (diag_pull m J' d').
  Proof. intros EJ Ed q j Hq Hj. apply bsum_ext. intros i Hi. now rewrite EJ, Ed. Qed.
  Lemma diag_push_pick m k J J' d d' : Jpick n f m k J J' -> dagree k d d' -> dagree m (diag_push k J d) (diag_push k J' d').
  Proof. intros EJ Ed q j Hq Hj. apply bsum_ext. intros i Hi. now rewrite EJ, Ed. Qed.
  Lemma width_eq (t : T) a s : shape t = a :: s -> width t = numel s.
  Proof. intros S. unfold width. now rewrite S. Qed.

  Definition dind (pull push pullw : T -> dmetric (K := K) -> dmetric (K := K)) (s s' : list nat) (np : nat) : Prop :=
    forall x, wf x -> shape x = b :: s ->
      (forall d d', dagree (numel s') d d' -> dagree (numel s) (pull x d) (pull (pk x) d')) /\
      (forall d d', dagree (numel s') d d' -> dagree np (pullw x d) (pullw (pk x) d')) /\
      (forall d d', dagree (numel s) d d' -> dagree (numel s') (push x d) (push (pk x) d')).
  Definition dindw (pushw : T -> dmetric (K := K) -> dmetric (K := K)) (s s' : list nat) (np : nat) : Prop :=
    forall x, wf x -> shape x = b :: s -> forall d d', dagree np d d' -> dagree (numel s') (pushw x d) (pushw (pk x) d').

  Lemma dind_simple m s s' : typed m s s' -> batchwise m ->
    (forall x d, dpull m x d = match fwd m x with Ok y => diag_pull (width y) (layer_J m x Input) d | Raise _ => d end) ->
    (forall x d, dpush m x d = diag_push (width x) (layer_J m x Input) d) ->
    (forall x d, dpullw m x d = match fwd m x with Ok y => diag_pull (width y) (layer_J m x Weight) d | Raise _ => d end) ->
    (forall x d, dpushw m x d = diag_push (n_params m) (layer_J m x Weight) d) ->
    dind (dpull m) (dpush m) (dpullw m) s s' (n_params m) /\ dindw (dpushw m) s s' (n_params m).
  Proof.
    intros Ty Bw E1 E2 E3 E4.
    assert (G : forall x, wf x -> shape x = b :: s -> exists y, fwd m x = Ok y /\ fwd m (pk x) = Ok (pk y) /\
       width y = numel s' /\ width (pk y) = numel s' /\ width x = numel s /\ width (pk x) = numel s).
    { intros x Wx Sx. destruct (fwd_pick m s s' b n f x Ty Bw Hb Wx Sx Hn Hf) as (y & A & Wy & Sy & B). exists y.
      repeat split; auto; eapply width_eq; eauto using shape_pick. }
    split.
    - intros x Wx Sx. destruct (G x Wx Sx) as (y & A & B & C & D & E & F). repeat split; intros d d' Hd.
      + rewrite !E1, A, B, C, D. apply diag_pull_pick; auto. apply (layer_J_pick m s s' x Input); auto.
      + rewrite !E3, A, B, C, D. destruct (Nat.eq_dec (n_params m) 0) as [Z|Np]; [rewrite Z; intros q p _ H; lia|].
        apply diag_pull_pick; auto. apply (layer_J_pick m s s' x Weight); auto.
      + rewrite !E2, E, F. apply diag_push_pick; auto. apply (layer_J_pick m s s' x Input); auto.
    - intros x Wx Sx d d' Hd. rewrite !E4. destruct (Nat.eq_dec (n_params m) 0) as [Z|Np].
      + rewrite Z. intros q i _ _. reflexivity.
      + apply diag_push_pick; auto. apply (layer_J_pick m s s' x Weight); auto.
  Qed.

  Lemma dtree_indep :
    (forall m s s', typed m s s' -> batchwise m ->
       dind (dpull m) (dpush m) (dpullw m) s s' (n_params m) /\ dindw (dpushw m) s s' (n_params m)) /\
    (forall ms s s', typed_seq ms s s' -> batchwise_seq ms ->
       dind (seq_dpull dpull ms) (seq_dpush dpush ms) (seq_dpullw dpullw ms) s s' (seq_np ms) /\
       (forall x, wf x -> shape x = b :: s -> forall d d' a a', dagree (seq_np ms) d d' -> dagree (numel s) a a' ->
          dagree (numel s') (seq_dpushw dpushw ms x d a) (seq_dpushw dpushw ms (pk x) d' a'))).
  Proof.
    apply typed_both.
    - intros l s s' Ty Bw. apply dind_simple; auto. now constructor.
    - intros cfg s s' Ty _. apply dind_simple; auto. now constructor. exact I.
    - intros ms s s' Ty IH Bw. destruct (IH Bw) as (A & B). split; [exact A|]. intros x Wx Sx d d' Hd. apply B; auto. intros q i _ _. reflexivity.
    - intros ms c c' r Ty IH Bw. destruct (IH Bw) as (A & B).
      assert (Hw : forall x : T, shape x = b :: c :: r -> width x = numel (c :: r) /\ width (pk x) = numel (c :: r)).
      { intros x Sx. split; eapply width_eq; eauto using shape_pick. }
      assert (Hs : numel ((c + c') :: r) = numel (c :: r) + numel (c' :: r)) by (rewrite !numel_cons; lia).
      assert (Hu : forall d d', dagree (numel ((c + c') :: r)) d d' ->
        dagree (numel (c' :: r)) (fun q i => d q (numel (c :: r) + i)) (fun q i => d' q (numel (c :: r) + i))).
      { intros d d' Hd q i Hq Hi. apply Hd; auto. rewrite Hs. lia. }
      split; [intros x Wx Sx|intros x Wx Sx d d' Hd]; destruct (Hw x Sx) as [W1 W2]; [destruct (A x Wx Sx) as (A1 & A2 & A3)|].
      + repeat split; intros d d' Hd.
        * intros q j Hq Hj. cbn [dpull]. rewrite W1, W2. f_equal; [apply Hd; auto; rewrite Hs; lia|].
          apply (A1 _ _ (Hu d d' Hd)); auto.
        * intros q p Hq Hp. cbn [dpullw]. rewrite W1, W2. apply (A2 _ _ (Hu d d' Hd)); auto.
        * intros q i Hq Hi. cbn [dpush]. rewrite W1, W2. destruct (Nat.ltb_spec i (numel (c :: r))) as [L|L]; [now apply Hd|].
          apply (A3 d d' Hd); auto. rewrite Hs in Hi. lia.
      + intros q i Hq Hi. cbn [dpushw]. rewrite W1, W2. destruct (Nat.ltb_spec i (numel (c :: r))) as [L|L]; [reflexivity|].
        apply (B x Wx Sx d d' (fun _ _ => n0) (fun _ _ => n0)); auto; [intros ? ? _ _; reflexivity|]. rewrite Hs in Hi. lia.
    - intros s P _. split; [intros x Wx Sx|intros x Wx Sx d d' a a' Hd Ha]; cbn; auto. split; [auto|]. split; auto. intros d d1 _ q p _ Hp. inversion Hp.
    - intros m ms s s1 s2 Tm IHm Ts IHs [Bm Bs]. destruct (IHm Bm) as (A & B). destruct (IHs Bs) as (C & D).
      split; [intros x Wx Sx|intros x Wx Sx d d' a a' Hd Ha]; destruct (fwd_pick m s s1 b n f x Tm Bm Hb Wx Sx Hn Hf) as (y & F & Wy & Sy & G);
        destruct (A x Wx Sx) as (A1 & A2 & A3); cbn [seq_dpull seq_dpush seq_dpullw seq_dpushw]; rewrite F, G.
      + destruct (C y Wy Sy) as (C1 & C2 & C3). repeat split; intros d d' Hd.
        * apply A1, C1, Hd.
        * intros q p Hq Hp. destruct (Nat.ltb_spec p (n_params m)) as [L|L].
          -- apply A2; auto.
          -- apply C2; auto. unfold seq_np in *. cbn [fold_right] in Hp. lia.
        * apply C3, A3, Hd.
      + apply D; auto.
        * intros q p Hq Hp. apply Hd; auto. unfold seq_np in *. cbn [fold_right]. lia.
        * intros q i Hq Hi. f_equal; [now apply A3|]. apply B; auto. intros q' p Hq' Hp. apply Hd; auto. unfold seq_np in *. cbn [fold_right]. lia.
  Qed.
  End Sel.

  Section Fix.
    Variables (m : module K) (s s' : list nat) (b n : nat) (f : nat -> nat) (x M : T).
    Hypotheses (Ty : typed m s s') (Bw : batchwise m) (Hb : 0 < b) (Wx : wf x) (Sx : shape x = b :: s).
    Hypotheses (Hn : 0 < n) (Hf : selects n f b) (WM : wf M).
    Notation pk := (pick n f).
    Let Wx' : wf (pk x) := wf_pick n f x.
    Let Sx' : shape (pk x) = n :: s := shape_pick b n f x s Sx.
    Let WM' : wf (pk M) := wf_pick n f M.
    Lemma dM k : shape M = [b; k] -> dagree n f k (fun q i => gt M [q; i]) (fun q i => gt (pk M) [q; i]).
    Proof. intros SM q i Hq Hi. now apply (gt_pick2 b n f M k). Qed.
    Lemma dback_pick w h h' : all_sym m -> w <> Other -> shape M = [b; numel s'] ->
      exists r, snd (jTmjp m h x None (VT M) w true true true) = Ok r /\
        snd (jTmjp m h' (pk x) None (VT (pk M)) w true true true) = Ok (vpick n f r).
    Proof.
      intros Sy Hw SM. pose proof (shape_pick b n f M _ SM) as SM'.
      destruct (dback_none m s s' b h x M Ty Sy Hb Wx Sx WM SM) as (A & B).
      destruct (dback_none m s s' n h' (pk x) (pk M) Ty Sy Hn Wx' Sx' WM' SM') as (A' & B').
      destruct (proj1 (proj1 (dtree_indep b n f Hb Hn Hf) m s s' Ty Bw) x Wx Sx) as (C1 & C2 & _).
      destruct w; [| |congruence].
      - eexists. split; [exact A|]. rewrite A'. cbn [vpick]. do 2 f_equal. rewrite (pick_tab2 b n f Hf). apply tab2_ext.
        apply C1, dM, SM.
      - eexists. split; [exact B|]. rewrite B'. unfold wdiag. destruct Nat.eqb; [reflexivity|]. cbn [vpick]. do 2 f_equal.
        rewrite (pick_tab2 b n f Hf). apply tab2_ext. apply C2, dM, SM.
    Qed.
    Lemma dforth_pick w h h' : fwdable m -> w = Input \/ w = Weight /\ n_params m <> 0 ->
      shape M = [b; match w with Input => numel s | _ => n_params m end] ->
      exists r, snd (jmjTp m h x None (VT M) w true true true) = Ok r /\
        snd (jmjTp m h' (pk x) None (VT (pk M)) w true true true) = Ok (vpick n f r).
    Proof.
      intros Fd Hw SM. pose proof (shape_pick b n f M _ SM) as SM'.
      destruct (proj1 (dtree_indep b n f Hb Hn Hf) m s s' Ty Bw) as (C & D). destruct (C x Wx Sx) as (_ & _ & C3).
      destruct Hw as [-> | [-> Np]].
      - eexists. split; [exact (proj1 (dforth_none m s s' b h x Ty Fd Hb Wx Sx) M WM SM)|].
        rewrite (proj1 (dforth_none m s s' n h' (pk x) Ty Fd Hn Wx' Sx') (pk M) WM' SM'). cbn [vpick]. do 2 f_equal.
        rewrite (pick_tab2 b n f Hf). apply tab2_ext. apply C3, dM, SM.
      - eexists. split; [exact (dforth_weight m s s' b h x M Ty Fd Hb Wx Sx Np WM SM)|].
        rewrite (dforth_weight m s s' n h' (pk x) (pk M) Ty Fd Hn Wx' Sx' Np WM' SM'). cbn [vpick]. do 2 f_equal.
        rewrite (pick_tab2 b n f Hf). apply tab2_ext. apply (D x Wx Sx), dM, SM.
    Qed.
  End Fix.
End BatchDiag.
