(** add_hooks=False: forward and the forward-mode products do not depend on it, reverse-mode products raise. *)
From Coq Require Import String Ascii List Arith ZArith Lia Bool.
From Verif Require Import Scalar Sums Tensor TensorLemmas Conv Abstract Simple LinearLayer ConvLayer PoolLayer Module TreeBase HooksSpec.
Import ListNotations.
Local Open Scope nat_scope.
Local Open Scope list_scope.

Section Hooks.
  Context {K} `{NK : Num K}.
  Notation T := (tensor K).

  Lemma n_params_hooked : forall m : module K, n_params (hooked m) = n_params m.
  Proof.
    refine (module_ind2 (fun m => n_params (hooked m) = n_params m)
      (fun ms => n_params (Seq true (map hooked ms)) = n_params (Seq true ms)) _ _ _ _ _ _); auto.
    intros m ms A B. cbn in *. now rewrite A, B.
  Qed.
  Lemma fwd_hooked : forall m : module K, forall s s' x, snd (forward m s x) = snd (forward (hooked m) s' x).
  Proof.
    refine (module_ind2 (fun m => forall s s' x, snd (forward m s x) = snd (forward (hooked m) s' x))
      (fun ms => forall h ks ks' fm fm' x, snd (seq_forward forward h ms ks x fm) = snd (seq_forward forward true (map hooked ms) ks' x fm')) _ _ _ _ _ _).
    - reflexivity.
    - intros cfg s s' x. cbn. destruct max_pool2d as [[]|]; reflexivity.
    - intros h ms IH s s' x. cbn [forward hooked].
      specialize (IH h (st_kids s) (st_kids s') (if h then [x] else st_fm s) [x] x).
      destruct (seq_forward forward h) as [[] ?]. destruct (seq_forward forward true) as [[] ?]. exact IH.
    - intros F IH s s' x. cbn [forward hooked]. specialize (IH (st_kid s) (st_kid s') x).
      destruct (forward F), (forward (hooked F)). cbn in *. now rewrite IH.
    - reflexivity.
    - intros m ms A B h ks ks' fm fm' x. cbn [seq_forward map]. destruct (kid_split ks) as [k l], (kid_split ks') as [k' l'].
      specialize (A k k' x). destruct (forward m k x) as [k1 r], (forward (hooked m) k' x) as [k1' r']. cbn in A. subst r'.
      destruct r as [y|e]; [|reflexivity]. cbn [hook_push].
      specialize (B h l l' (hook_push h fm y) (fm' ++ [y]) y).
      destruct (seq_forward forward h) as [[] ?]. destruct (seq_forward forward true) as [[] ?]. exact B.
  Qed.

  Lemma jvp_hooked : forall m : module K, forall s s' x val v w, snd (jvp m s x val v w) = snd (jvp (hooked m) s' x val v w).
  Proof.
    refine (module_ind2 (fun m => forall s s' x val v w, snd (jvp m s x val v w) = snd (jvp (hooked m) s' x val v w))
      (fun ms => (forall h ks ks' fm fm' x v, snd (seq_jvp_in jvp h ms ks x fm v) = snd (seq_jvp_in jvp true (map hooked ms) ks' x fm' v)) /\
                 (forall h ks ks' fm fm' x v p acc, snd (seq_jvp_w jvp h ms ks x fm v p acc) = snd (seq_jvp_w jvp true (map hooked ms) ks' x fm' v p acc)))
      _ _ _ _ _ _).
    - reflexivity.
    - reflexivity.
    - intros h ms [A B] s s' x val v w. cbn [jvp hooked]. destruct w; [| |reflexivity].
      + specialize (A h (st_kids s) (st_kids s') (st_fm s) (st_fm s') x v).
        destruct (seq_jvp_in jvp h) as [[] ?]. destruct (seq_jvp_in jvp true) as [[] ?]. cbn in *. now rewrite A.
      + specialize (B h (st_kids s) (st_kids s') (st_fm s) (st_fm s') x v 0 None).
        destruct (seq_jvp_w jvp h) as [[] ?]. destruct (seq_jvp_w jvp true) as [[] ?]. exact B.
    - intros F IH s s' x val v w. cbn [jvp hooked].
      destruct (b <- size 0 x ;; l <- numel0 x ;; t <- val_tail l val ;; Ok (b, l, t)) as [[[b l] t]|]; [|reflexivity].
      specialize (IH (st_kid s) (st_kid s') x t v w). destruct (jvp F), (jvp (hooked F)). cbn in *. now rewrite IH.
    - split; reflexivity.
    - intros m ms IH [A B]. split.
      + intros h ks ks' fm fm' x v. cbn [seq_jvp_in map]. destruct (kid_split ks) as [k l], (kid_split ks') as [k' l'].
        pose proof (fwd_hooked m k k' x) as F. destruct (forward m k x) as [k1 r], (forward (hooked m) k' x) as [k1' r']. cbn in F. subst r'.
        destruct r as [y|e]; [|reflexivity]. cbv zeta.
        specialize (IH k1 k1' x (Some y) v Input). destruct (jvp m k1 x (Some y) v Input) as [k2 r], (jvp (hooked m) k1' x (Some y) v Input) as [k2' r'].
        cbn in IH. subst r'. destruct (r <- r ;; need r) as [v1|]; [|reflexivity].
        specialize (A h l l' (hook_push h fm y) (hook_push true fm' y) y v1).
        destruct (seq_jvp_in jvp h) as [[] ?]. destruct (seq_jvp_in jvp true) as [[] ?]. exact A.
      + intros h ks ks' fm fm' x v p acc. cbn [seq_jvp_w map]. destruct (kid_split ks) as [k l], (kid_split ks') as [k' l'].
        pose proof (fwd_hooked m k k' x) as F. destruct (forward m k x) as [k1 r], (forward (hooked m) k' x) as [k1' r']. cbn in F. subst r'.
        destruct r as [y|e]; [|reflexivity]. cbv zeta. rewrite n_params_hooked.
        assert (E : exists k2 k2' r, (match acc with None => (k1, Ok None) | Some a => jvp m k1 x (Some y) a Input end) = (k2, r) /\
           (match acc with None => (k1', Ok None) | Some a => jvp (hooked m) k1' x (Some y) a Input end) = (k2', r)).
        { destruct acc as [a|]; [|now exists k1, k1', (Ok None)]. pose proof (IH k1 k1' x (Some y) a Input) as I.
          destruct (jvp m k1 x (Some y) a Input) as [k2 r], (jvp (hooked m) k1' x (Some y) a Input) as [k2' r']. cbn in I. subst r'. eauto. }
        destruct E as (k2 & k2' & r & -> & ->).
        destruct (acc0 <- r ;; vp <- slice n0 1 p (p + n_params m) v ;; Ok (acc0, vp)) as [[acc1 vp]|]; [|reflexivity].
        pose proof (IH k2 k2' x (Some y) vp Weight) as I.
        destruct (jvp m k2 x (Some y) vp Weight) as [k3 r3], (jvp (hooked m) k2' x (Some y) vp Weight) as [k3' r3']. cbn in I. subst r3'.
        destruct (new <- r3 ;; accumulate acc1 new) as [acc2|]; [|reflexivity].
        specialize (B h l l' (hook_push h fm y) (hook_push true fm' y) y v (p + n_params m) acc2).
        destruct (seq_jvp_w jvp h) as [[] ?]. destruct (seq_jvp_w jvp true) as [[] ?]. exact B.
  Qed.

  (** a pooling layer whose stored indices are those of x *)
  Fixpoint fresh (m : module K) (s : st K) (x : T) : Prop :=
    match m with
    | MaxPool cfg => exists y i, max_pool2d cfg x = Ok (y, i) /\ st_idx s = Some i
    | Skip F => fresh F (st_kid s) x
    | _ => True
    end.
  Lemma forward_fresh m : forall s x y, snd (forward m s x) = Ok y -> fresh m (fst (forward m s x)) x.
  Proof.
    induction m as [l|cfg|h ms|F IH]; intros s x y; cbn; auto.
    - destruct (max_pool2d cfg x) as [[v i]|]; cbn; [eauto|discriminate].
    - destruct (forward F (st_kid s) x) as [k r] eqn:E. cbn. intros H. destruct r as [z|]; [|discriminate].
      specialize (IH (st_kid s) x z). rewrite E in IH. apply IH. reflexivity.
  Qed.
  Lemma fresh_hooked m : forall s x, fresh (hooked m) s x = fresh m s x.
  Proof. induction m as [l|cfg|h ms|F IH]; intros; cbn; auto. Qed.
  Lemma jmp_fresh m : forall s x y v w, fresh m s x -> fresh m (fst (jmp m s x (Some y) (Some v) w)) x.
  Proof.
    induction m as [l|cfg|h ms|F IH]; intros s x y v w; cbn; auto.
    - destruct w; auto.
    - intros H. destruct (size 0 x); cbn; auto. destruct (numel0 x) as [l|]; cbn; auto.
      unfold some. destruct (slice_from n0 1 l y) as [t|]; cbn; auto. specialize (IH (st_kid s) x t v w H).
      destruct (jmp F). exact IH.
  Qed.
  Lemma leaf_jmp_some (l : leaf K) x val v : (match l with Custom c => custom_answers c | _ => True end) -> leaf_jmp l x val (Some v) Input <> Ok None.
  Proof.
    assert (S : forall r : res T, some r <> Ok None) by (intros [|]; discriminate).
    assert (B : forall {A} (r : res A) (f : A -> res (option T)), (forall a, f a <> Ok None) -> bind r f <> Ok None) by (intros A [|] f Hf; cbn; [apply Hf|discriminate]).
    assert (N : forall t : res (option T), t <> Ok None -> forall f : option T -> res (option T), (forall j, f (Some j) <> Ok None) -> bind t f <> Ok None).
    { intros [[t|]|e] Ht f Hf; cbn; [apply Hf|congruence|discriminate]. }
    destruct l as [W b|c W b|a| |d|e|sn sd|c]; cbn [leaf_jmp]; intros H; try (cbn; discriminate).
    - apply S.
    - cbn [ad_jmp]. apply N; [|intros; apply S]. unfold act_jacobian. destruct a; repeat (apply B; intros; cbv beta); try apply S; try discriminate.
    - unfold aj_jmp. apply N; [|intros; apply B; intros; apply S]. unfold l2_jacobian. do 3 (apply B; intros; cbv beta). apply B. intros [? ?]. repeat (apply B; intros; cbv beta). discriminate.
    - unfold aj_jmp. apply N; [apply H|intros; apply B; intros; apply S].
  Qed.
  Definition answers_seq (ms : list (module K)) : Prop := answers (Seq true ms).

  Lemma jmp_hooked : forall m : module K, answers m ->
    (forall s s' x y v w, fresh m s x -> fresh m s' x -> snd (jmp m s x (Some y) (Some v) w) = snd (jmp (hooked m) s' x (Some y) (Some v) w)) /\
    (forall s s' x v w, snd (jmp m s x None (Some v) w) = snd (jmp (hooked m) s' x None (Some v) w)) /\
    (forall s x val v, snd (jmp m s x val (Some v) Input) <> Ok None).
  Proof.
    refine (module_ind2 (fun m => answers m ->
      (forall s s' x y v w, fresh m s x -> fresh m s' x -> snd (jmp m s x (Some y) (Some v) w) = snd (jmp (hooked m) s' x (Some y) (Some v) w)) /\
      (forall s s' x v w, snd (jmp m s x None (Some v) w) = snd (jmp (hooked m) s' x None (Some v) w)) /\
      (forall s x val v, snd (jmp m s x val (Some v) Input) <> Ok None))
      (fun ms => answers_seq ms ->
        (forall h ks ks' fm fm' x v, snd (seq_jmp_in jmp h ms ks x fm (Some v)) = snd (seq_jmp_in jmp true (map hooked ms) ks' x fm' (Some v))) /\
        (forall h ks fm x v, snd (seq_jmp_in jmp h ms ks x fm (Some v)) <> Ok None) /\
        (forall h ks ks' fm fm' x v p acc, snd (seq_jmp_w jmp h ms ks x fm v p acc) = snd (seq_jmp_w jmp true (map hooked ms) ks' x fm' v p acc)))
      _ _ _ _ _ _).
    - intros l A. split; [|split]; try reflexivity. intros s x val v. cbn. apply leaf_jmp_some. destruct l; auto.
    - intros cfg _. split; [|split].
      + intros s s' x y v w (y1 & i & E & F) (y2 & i' & E' & F'). rewrite E in E'. injection E' as <- <-. cbn. destruct w; auto. cbn. now rewrite F, F'.
      + intros s s' x v w. cbn. destruct w; auto. destruct max_pool2d as [[]|]; reflexivity.
      + intros s x val v. cbn. destruct (ensure (MaxPool cfg) s x val) as [s1 [y|]]; cbn; [|discriminate]. now destruct pool_jmp.
    - intros h ms IH A. destruct (IH A) as (I1 & I2 & I3).
      assert (G : forall s s' x val v w, snd (jmp (Seq h ms) s x val (Some v) w) = snd (jmp (hooked (Seq h ms)) s' x val (Some v) w)).
      { intros s s' x val v w. cbn [jmp hooked]. destruct w; cbn [wrt_ok]; [| |reflexivity].
        - specialize (I1 h (st_kids s) (st_kids s') (st_fm s) (st_fm s') x v).
          destruct (seq_jmp_in jmp h) as [[] ?]. destruct (seq_jmp_in jmp true) as [[] ?]. exact I1.
        - specialize (I3 h (st_kids s) (st_kids s') (st_fm s) (st_fm s') x v 0 None).
          destruct (seq_jmp_w jmp h) as [[] ?]. destruct (seq_jmp_w jmp true) as [[] ?]. exact I3. }
      split; [|split]; [intros; apply G|intros; apply G|].
      intros s x val v. cbn [jmp wrt_ok]. specialize (I2 h (st_kids s) (st_fm s) x v). destruct (seq_jmp_in jmp h) as [[] ?]. exact I2.
    - intros F IH A. destruct (IH A) as (I1 & I2 & I3). split; [|split].
      + intros s s' x y v w H H'. cbn [jmp hooked].
        destruct (b <- size 0 x ;; l <- numel0 x ;; t <- val_tail l (Some y) ;; Ok (b, l, t)) as [[[b l] t]|] eqn:E; [|reflexivity].
        assert (Et : exists t0, t = Some t0).
        { destruct (size 0 x); cbn in E; [|discriminate]. destruct (numel0 x); cbn in E; [|discriminate]. unfold some in E.
          destruct slice_from; cbn in E; [|discriminate]. injection E as _ _ <-. eauto. }
        destruct Et as [t0 ->]. specialize (I1 (st_kid s) (st_kid s') x t0 v w H H').
        destruct (jmp F), (jmp (hooked F)). cbn in *. now rewrite I1.
      + intros s s' x v w. cbn [jmp hooked val_tail].
        destruct (size 0 x); cbn [bind]; [|reflexivity]. destruct (numel0 x); cbn [bind]; [|reflexivity].
        specialize (I2 (st_kid s) (st_kid s') x v w). destruct (jmp F), (jmp (hooked F)). cbn in *. now rewrite I2.
      + intros s x val v. cbn [jmp].
        destruct (b <- size 0 x ;; l <- numel0 x ;; t <- val_tail l val ;; Ok (b, l, t)) as [[[b l] t]|] eqn:E; [|discriminate].
        destruct (jmp F (st_kid s) x t (Some v) Input) as [k [r|]]; cbn [snd bind]; [|discriminate]. destruct (need r) as [a|]; cbn [bind]; [|discriminate]. generalize (cat n0 1 [v; a]). intros [|]; discriminate.
    - intros _. split; [|split]; try reflexivity. intros. cbn. discriminate.
    - intros m ms IHm IHs [Am As]. destruct (IHm Am) as (I1 & _ & I3). destruct (IHs As) as (J1 & J2 & J3).
      assert (Fr : forall k k' x, exists k1 k1' r, forward m k x = (k1, r) /\ forward (hooked m) k' x = (k1', r) /\ (forall y, r = Ok y -> fresh m k1 x /\ fresh m k1' x)).
      { intros k k' x. pose proof (fwd_hooked m k k' x) as F. pose proof (forward_fresh m k x) as H1. pose proof (forward_fresh (hooked m) k' x) as H2.
        destruct (forward m k x) as [k1 r], (forward (hooked m) k' x) as [k1' r']. cbn in F. subst r'. exists k1, k1', r. repeat split; auto.
        - now apply (H1 y).
        - rewrite <- fresh_hooked. now apply (H2 y). }
      assert (Jm : forall k k' x y v w, fresh m k x -> fresh m k' x -> exists k1 k1' r, jmp m k x (Some y) (Some v) w = (k1, r) /\
         jmp (hooked m) k' x (Some y) (Some v) w = (k1', r) /\ fresh m k1 x /\ fresh m k1' x).
      { intros k k' x y v w H H'. pose proof (I1 k k' x y v w H H') as E. pose proof (jmp_fresh m k x y v w H) as H1.
        pose proof (jmp_fresh (hooked m) k' x y v w) as H2. rewrite !fresh_hooked in H2. specialize (H2 H').
        destruct (jmp m k x (Some y) (Some v) w) as [k1 r], (jmp (hooked m) k' x (Some y) (Some v) w) as [k1' r']. cbn in E. subst r'.
        exists k1, k1', r. repeat split; auto. }
      split; [|split].
      + intros h ks ks' fm fm' x v. cbn [seq_jmp_in map]. destruct (kid_split ks) as [k l], (kid_split ks') as [k' l'].
        destruct (Fr k k' x) as (k1 & k1' & r & -> & -> & H). destruct r as [y|]; [|reflexivity]. destruct (H y eq_refl) as [H1 H2]. cbv zeta.
        pose proof (I3 k1 x (Some y) v) as Nn. destruct (Jm k1 k1' x y v Input H1 H2) as (k2 & k2' & r & E1 & E2 & _). rewrite E1, E2. rewrite E1 in Nn.
        destruct r as [[v1|]|]; [|now destruct Nn|reflexivity].
        specialize (J1 h l l' (hook_push h fm y) (hook_push true fm' y) y v1).
        destruct (seq_jmp_in jmp h) as [[] ?]. destruct (seq_jmp_in jmp true) as [[] ?]. exact J1.
      + intros h ks fm x v. cbn [seq_jmp_in]. destruct (kid_split ks) as [k l]. destruct (forward m k x) as [k1 [y|]]; [|discriminate]. cbv zeta.
        pose proof (I3 k1 x (Some y) v) as Nn. destruct (jmp m k1 x (Some y) (Some v) Input) as [k2 [[v1|]|]]; [|now destruct Nn|discriminate].
        specialize (J2 h l (hook_push h fm y) y v1). destruct (seq_jmp_in jmp h) as [[] ?]. exact J2.
      + intros h ks ks' fm fm' x v p acc. cbn [seq_jmp_w map]. destruct (kid_split ks) as [k l], (kid_split ks') as [k' l'].
        destruct (Fr k k' x) as (k1 & k1' & r & -> & -> & H). destruct r as [y|]; [|reflexivity]. destruct (H y eq_refl) as [H1 H2]. cbv zeta. rewrite n_params_hooked.
        assert (E : exists k2 k2' r, (match acc with None => (k1, Ok None) | Some a => jmp m k1 x (Some y) (Some a) Input end) = (k2, r) /\
           (match acc with None => (k1', Ok None) | Some a => jmp (hooked m) k1' x (Some y) (Some a) Input end) = (k2', r) /\ fresh m k2 x /\ fresh m k2' x).
        { destruct acc as [a|]; [|now exists k1, k1', (Ok None)]. apply Jm; auto. }
        destruct E as (k2 & k2' & r & -> & -> & H3 & H4).
        destruct (acc0 <- r ;; vp <- slice n0 1 p (p + n_params m) v ;; check (rank v =? 3) IndexError (Ok (acc0, vp))) as [[acc1 vp]|]; [|reflexivity].
        destruct (Jm k2 k2' x y vp Weight H3 H4) as (k3 & k3' & r3 & -> & -> & _).
        destruct (new <- r3 ;; accumulate acc1 new) as [acc2|]; [|reflexivity].
        specialize (J3 h l l' (hook_push h fm y) (hook_push true fm' y) y v (p + n_params m) acc2).
        destruct (seq_jmp_w jmp h) as [[] ?]. destruct (seq_jmp_w jmp true) as [[] ?]. exact J3.
  Qed.

  (** *** reverse-mode products without hooks *)
  Lemma fmap2_off (fm : list T) k : fmap2 false fm k = Raise AttributeError. Proof. reflexivity. Qed.
  Ltac off_seq IH := intros ms; induction ms as [|m ms IH]; [congruence|]; intros.
  Lemma seq_vjp_off f : forall (ms : list (module K)), ms <> [] -> forall fm ks k v,
    snd (seq_vjp_in f false fm ms ks k v) = Raise AttributeError /\ snd (seq_vjp_w f false fm ms ks k v) = Raise AttributeError.
  Proof.
    off_seq IH. cbn [seq_vjp_in seq_vjp_w]. destruct (kid_split ks) as [s l]. destruct ms as [|m' ms].
    - cbn. auto.
    - destruct (IH ltac:(discriminate) fm l (S k) v) as [A B]. destruct (seq_vjp_in f false fm (m' :: ms)) as [? ?]. destruct (seq_vjp_w f false fm (m' :: ms)) as [? ?].
      cbn in A, B. subst. cbn. auto.
  Qed.
  Lemma seq_mjp_off f : forall (ms : list (module K)), ms <> [] -> forall fm ks k v,
    snd (seq_mjp_in f false fm ms ks k v) = Raise AttributeError /\ snd (seq_mjp_w f false fm ms ks k v) = Raise AttributeError.
  Proof.
    off_seq IH. cbn [seq_mjp_in seq_mjp_w]. destruct (kid_split ks) as [s l]. destruct ms as [|m' ms].
    - cbn. auto.
    - destruct (IH ltac:(discriminate) fm l (S k) v) as [A B]. destruct (seq_mjp_in f false fm (m' :: ms)) as [? ?]. destruct (seq_mjp_w f false fm (m' :: ms)) as [? ?].
      cbn in A, B. subst. cbn. auto.
  Qed.
  Lemma seq_jTmjp_off f : forall (ms : list (module K)), ms <> [] -> forall fm ks k v fd td db,
    snd (seq_jTmjp_in f false fm ms ks k v fd td db) = Raise AttributeError /\ snd (seq_jTmjp_w f false fm ms ks k v fd td db) = Raise AttributeError.
  Proof.
    off_seq IH. cbn [seq_jTmjp_in seq_jTmjp_w]. destruct (kid_split ks) as [s l]. destruct ms as [|m' ms].
    - cbn. auto.
    - destruct (IH ltac:(discriminate) fm l (S k) v fd td db) as [A B]. destruct (seq_jTmjp_in f false fm (m' :: ms)) as [? ?]. destruct (seq_jTmjp_w f false fm (m' :: ms)) as [? ?].
      cbn in A, B. subst. cbn. auto.
  Qed.
  Section Off.
    Variables (ms : list (module K)) (h : st K) (x : T) (val : option T).
    Hypothesis (Ne : ms <> []).
    (** the value is given or forward computes it *)
    Hypothesis (V : exists b n y, shape y = b :: n /\ snd (ensure (Seq false ms) h x val) = Ok y).
    Lemma vjp_off v w : w <> Other -> snd (vjp (Seq false ms) h x val v w) = Raise AttributeError.
    Proof.
      intros Hw. cbn [vjp]. destruct V as (b & n & y & _ & E). destruct (ensure (Seq false ms) h x val) as [s r]. cbn in E. subst r.
      destruct (seq_vjp_off vjp ms Ne (st_fm s) (st_kids s) 0 v) as [A B]. destruct w; [| |congruence]; cbn [wrt_ok].
      - destruct seq_vjp_in. cbn in *. now rewrite A.
      - destruct seq_vjp_w. cbn in *. now rewrite B.
    Qed.
    Lemma mjp_off M w : w <> Other -> snd (mjp (Seq false ms) h x val M w) = Raise AttributeError.
    Proof.
      intros Hw. cbn [mjp]. destruct V as (b & n & y & Sy & E). destruct (ensure (Seq false ms) h x val) as [s r]. cbn in E. subst r.
      assert (G : exists mt, (y0 <- Ok y;; match M with Some mt => Ok mt | None => match shape y0 with [] => Raise IndexError | b0 :: sh => Ok (eye_repeat b0 (numel sh)) end end) = Ok mt).
      { cbn. destruct M; [eauto|]. rewrite Sy. eauto. }
      destruct G as [mt ->]. destruct (seq_mjp_off mjp ms Ne (st_fm s) (st_kids s) 0 (Some mt)) as [A B]. destruct w; [| |congruence]; cbn [wrt_ok].
      - destruct seq_mjp_in. cbn in *. now rewrite A.
      - destruct seq_mjp_w. cbn in *. now rewrite B.
    Qed.
    Lemma jacobian_off w : w <> Other -> snd (jacobian (Seq false ms) h x val w) = Raise AttributeError.
    Proof. apply mjp_off. Qed.
    Lemma jTmjp_off M w fd td db : db_ok fd td db = true -> snd (jTmjp (Seq false ms) h x val M w fd td db) = Raise AttributeError.
    Proof.
      intros D. cbn [jTmjp]. rewrite D. destruct V as (b & n & y & Sy & E). destruct (ensure (Seq false ms) h x val) as [s r]. cbn in E. subst r.
      assert (G : exists p, (y0 <- Ok y;; match M with VNone => match shape y0 with [] => Raise IndexError | b0 :: sh => Ok (VT (ones [b0; numel sh]), true) end | _ => Ok (M, fd) end) = Ok p).
      { cbn. destruct M; eauto. rewrite Sy. eauto. }
      destruct G as [[mt fd'] ->]. destruct (seq_jTmjp_off jTmjp ms Ne (st_fm s) (st_kids s) 0 mt fd' td db) as [A B]. destruct w.
      - destruct seq_jTmjp_in. cbn in *. now rewrite A.
      - destruct seq_jTmjp_w. cbn in *. now rewrite B.
      - destruct seq_jTmjp_in. cbn in *. now rewrite A.
    Qed.
    Lemma jmjTp_off M fd td db : db_ok fd td db = true -> snd (jmjTp (Seq false ms) h x val M Input fd td db) = Raise AttributeError.
    Proof.
      intros D. cbn [jmjTp]. rewrite D. destruct V as (b & n & y & Sy & E). destruct (ensure (Seq false ms) h x val) as [s r]. cbn in E. subst r.
      assert (G : forall mt fd', snd (seq_jmjTp_in jmjTp false (st_fm s) ms (st_kids s) 0 mt fd' td db) = Raise AttributeError).
      { intros mt fd'. destruct ms as [|m' ms']; [congruence|]. cbn. now destruct (kid_split (st_kids s)). }
      destruct M; match goal with |- context[seq_jmjTp_in jmjTp false (st_fm s) ms (st_kids s) 0 ?a ?c td db] => specialize (G a c) end;
        destruct seq_jmjTp_in; exact G.
    Qed.
    (** wrt weight: one block per parametric layer is cut first *)
    Lemma seq_jmjTp_w_off f (l : list (module K)) : seq_np l <> 0 -> forall fm ks k bs fd td db,
      snd (seq_jmjTp_w f false fm l ks k bs VNone fd td db) = Raise AttributeError.
    Proof.
      unfold seq_np. induction l as [|m l IH]; [cbn; congruence|]. intros Np fm ks k bs fd td db. cbn [seq_jmjTp_w]. destruct (kid_split ks) as [s' ks'].
      destruct (Nat.eqb_spec (n_params m) 0) as [Z|Z].
      - cbn [fold_right] in Np. specialize (IH ltac:(lia) fm ks' (S k) bs fd td db). destruct seq_jmjTp_w. exact IH.
      - reflexivity.
    Qed.
    Lemma jmjTp_w_off l fd td db : db_ok fd td db = true -> n_params (Seq false ms) <> 0 ->
      snd (jmjTp (Seq false ms) h x val (VL l) Weight fd td db) = Raise AttributeError.
    Proof.
      intros D Np. cbn [jmjTp]. rewrite D. destruct V as (b & n & y & Sy & E). destruct (ensure (Seq false ms) h x val) as [s r]. cbn in E. subst r. cbn [bind].
      pose proof (seq_jmjTp_w_off jmjTp ms Np (st_fm s) (st_kids s) 0 l fd td db) as G. destruct seq_jmjTp_w. exact G.
    Qed.
  End Off.
End Hooks.

Section HooksMain.
  Context {K} `{NK : Num K}.
  Notation T := (tensor K).
  Lemma jmp_hooked_none (m : module K) h h' x M w : answers m -> snd (jmp m h x None (Some M) w) = snd (jmp (hooked m) h' x None (Some M) w).
  Proof. intros A. destruct (jmp_hooked m A) as (_ & B & _). apply B. Qed.
  Lemma jmp_hooked_seq a (ms : list (module K)) h h' x val M w : answers (Seq a ms) ->
    snd (jmp (Seq a ms) h x val (Some M) w) = snd (jmp (hooked (Seq a ms)) h' x val (Some M) w).
  Proof.
    intros A. destruct (jmp_hooked (Seq a ms) A) as (B & C & _). destruct val as [y|]; [|apply C]. apply B; exact I.
  Qed.
  Lemma reverse_off (ms : list (module K)) h x val y b n : ms <> [] -> shape y = b :: n ->
    val = Some y \/ val = None /\ snd (forward (Seq false ms) h x) = Ok y ->
    (forall v w, w <> Other -> snd (vjp (Seq false ms) h x val v w) = Raise AttributeError) /\
    (forall M w, w <> Other -> snd (mjp (Seq false ms) h x val M w) = Raise AttributeError) /\
    (forall w, w <> Other -> snd (jacobian (Seq false ms) h x val w) = Raise AttributeError) /\
    (forall M w fd td db, db_ok fd td db = true -> snd (jTmjp (Seq false ms) h x val M w fd td db) = Raise AttributeError) /\
    (forall M fd td db, db_ok fd td db = true -> snd (jmjTp (Seq false ms) h x val M Input fd td db) = Raise AttributeError) /\
    (forall l fd td db, db_ok fd td db = true -> n_params (Seq false ms) <> 0 -> snd (jmjTp (Seq false ms) h x val (VL l) Weight fd td db) = Raise AttributeError).
  Proof.
    intros Ne Sy V. assert (V' : exists b n y, shape y = b :: n /\ snd (ensure (Seq false ms) h x val) = Ok y).
    { exists b, n, y. split; auto. destruct V as [-> | [-> E]]; auto. }
    repeat split; intros; [apply vjp_off|apply mjp_off|apply jacobian_off|apply jTmjp_off|apply jmjTp_off|apply jmjTp_w_off]; auto.
  Qed.
End HooksMain.
