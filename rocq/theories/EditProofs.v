(** Proofs about networks edited after construction. *)
From Coq Require Import List Arith ZArith Lia Bool.
From Verif Require Import Scalar Tensor Conv Abstract Simple Module Calls Edit EditSpec.
Import ListNotations.
Local Open Scope nat_scope.
Local Open Scope list_scope.

Section EditProofs.
  Context {K} `{CR : CRing K}.
  Notation T := (tensor K).
  Implicit Types (es : list (lobj K)) (E : edited K).

  Definition run_of es := filter (fun e => runs (e_mark e)) es.
  Definition old_of es := filter (fun e => listed (e_mark e)) es.
  Definition sig es := map (fun e => (e_mark e, e_mod e)) es.

  (** *** calls change neither the marks nor the layers *)
  Lemma sig_put es : forall ks, sig (put es ks) = sig es.
  Proof.
    induction es as [|e es IH]; intros ks; [reflexivity|]. cbn [put]. destruct (listed (e_mark e)).
    - destruct ks; [reflexivity|]. cbn [sig map e_mark e_mod]. f_equal. apply IH.
    - cbn [sig map]. f_equal. apply IH.
  Qed.
  Lemma sig_forward es : forall x fm, sig (fst (fst (e_seq_forward es x fm))) = sig es.
  Proof.
    induction es as [|[g m s] es IH]; intros x fm; [reflexivity|]. cbn [e_seq_forward].
    destruct (runs g).
    - destruct (forward m s x) as [s1 [y|e]]; [|reflexivity]. specialize (IH y (hook_push (has_hook g) fm y)).
      destruct (e_seq_forward es y _) as [[es' fm'] r]. cbn [fst sig map e_mark e_mod] in *. f_equal. exact IH.
    - specialize (IH x fm). destruct (e_seq_forward es x fm) as [[es' fm'] r]. cbn [fst sig map e_mark e_mod] in *. f_equal. exact IH.
  Qed.
  Lemma sig_jvp_in es : forall x fm v, sig (fst (fst (e_seq_jvp_in es x fm v))) = sig es.
  Proof.
    induction es as [|[g m s] es IH]; intros x fm v; [reflexivity|]. cbn [e_seq_jvp_in].
    destruct (runs g).
    - destruct (forward m s x) as [s1 [y|e]]; [|reflexivity]. destruct (jvp m s1 x (Some y) v Input) as [s2 r].
      destruct (bind r _) as [v1|e]; [|reflexivity]. specialize (IH y (hook_push (has_hook g) fm y) v1).
      destruct (e_seq_jvp_in es y _ v1) as [[es' fm'] r']. cbn [fst sig map e_mark e_mod] in *. f_equal. exact IH.
    - specialize (IH x fm v). destruct (e_seq_jvp_in es x fm v) as [[es' fm'] r]. cbn [fst sig map e_mark e_mod] in *. f_equal. exact IH.
  Qed.
  Lemma sig_jmp_in es : forall x fm v, sig (fst (fst (e_seq_jmp_in es x fm v))) = sig es.
  Proof.
    induction es as [|[g m s] es IH]; intros x fm v; [reflexivity|]. cbn [e_seq_jmp_in].
    destruct (runs g).
    - destruct (forward m s x) as [s1 [y|e]]; [|reflexivity]. destruct (jmp m s1 x (Some y) v Input) as [s2 [v1|e]]; [|reflexivity].
      specialize (IH y (hook_push (has_hook g) fm y) v1).
      destruct (e_seq_jmp_in es y _ v1) as [[es' fm'] r']. cbn [fst sig map e_mark e_mod] in *. f_equal. exact IH.
    - specialize (IH x fm v). destruct (e_seq_jmp_in es x fm v) as [[es' fm'] r]. cbn [fst sig map e_mark e_mod] in *. f_equal. exact IH.
  Qed.
  Lemma sig_jvp_w es : forall x fm v p acc, sig (fst (fst (e_seq_jvp_w es x fm v p acc))) = sig es.
  Proof.
    induction es as [|[g m s] es IH]; intros x fm v p acc; [reflexivity|]. cbn [e_seq_jvp_w].
    destruct (runs g).
    - destruct (forward m s x) as [s1 [y|e]]; [|reflexivity].
      destruct (match acc with Some a => jvp m s1 x (Some y) a Input | None => (s1, Ok None) end) as [s2 r].
      destruct (bind r _) as [[acc1 vp]|e]; [|reflexivity]. destruct (jvp m s2 x (Some y) vp Weight) as [s3 r3].
      destruct (bind r3 _) as [acc2|e]; [|reflexivity]. specialize (IH y (hook_push (has_hook g) fm y) v (p + n_params m) acc2).
      destruct (e_seq_jvp_w es y _ v _ acc2) as [[es' fm'] r']. cbn [fst sig map e_mark e_mod] in *. f_equal. exact IH.
    - specialize (IH x fm v p acc). destruct (e_seq_jvp_w es x fm v p acc) as [[es' fm'] r]. cbn [fst sig map e_mark e_mod] in *. f_equal. exact IH.
  Qed.
  Lemma sig_jmp_w es : forall x fm v p acc, sig (fst (fst (e_seq_jmp_w es x fm v p acc))) = sig es.
  Proof.
    induction es as [|[g m s] es IH]; intros x fm v p acc; [reflexivity|]. cbn [e_seq_jmp_w].
    destruct (runs g).
    - destruct (forward m s x) as [s1 [y|e]]; [|reflexivity].
      destruct (match acc with Some a => jmp m s1 x (Some y) (Some a) Input | None => (s1, Ok None) end) as [s2 r].
      destruct (bind r _) as [[acc1 vp]|e]; [|reflexivity]. destruct (jmp m s2 x (Some y) (Some vp) Weight) as [s3 r3].
      destruct (bind r3 _) as [acc2|e]; [|reflexivity]. specialize (IH y (hook_push (has_hook g) fm y) v (p + n_params m) acc2).
      destruct (e_seq_jmp_w es y _ v _ acc2) as [[es' fm'] r']. cbn [fst sig map e_mark e_mod] in *. f_equal. exact IH.
    - specialize (IH x fm v p acc). destruct (e_seq_jmp_w es x fm v p acc) as [[es' fm'] r]. cbn [fst sig map e_mark e_mod] in *. f_equal. exact IH.
  Qed.
  Lemma sig_e_forward E x : sig (e_ents (fst (e_forward E x))) = sig (e_ents E).
  Proof. unfold e_forward. pose proof (sig_forward (e_ents E) x [x]) as S. destruct (e_seq_forward _ _ _) as [[es fm] r]. exact S. Qed.
  Lemma sig_ensure E x val : sig (e_ents (fst (e_ensure E x val))) = sig (e_ents E).
  Proof. destruct val; [reflexivity|]. apply sig_e_forward. Qed.
  Lemma sig_put_back E ks : sig (e_ents (put_back E ks)) = sig (e_ents E).
  Proof. apply sig_put. Qed.
  Lemma sig_vjp E x val v w : sig (e_ents (fst (e_vjp E x val v w))) = sig (e_ents E).
  Proof.
    unfold e_vjp. destruct (wrt_ok w); [|reflexivity]. pose proof (sig_ensure E x val) as S.
    destruct (e_ensure E x val) as [E1 [y|e]]; [|exact S]. cbn [fst] in S.
    destruct w; match goal with |- context [let '(_, _) := ?u in _] => destruct u as [ks r] end; cbn [fst]; rewrite sig_put_back; exact S.
  Qed.
  Lemma sig_mjp E x val v w : sig (e_ents (fst (e_mjp E x val v w))) = sig (e_ents E).
  Proof.
    unfold e_mjp. destruct (wrt_ok w); [|reflexivity]. pose proof (sig_ensure E x val) as S.
    destruct (e_ensure E x val) as [E1 r]. cbn [fst] in S. destruct (bind r _) as [mt|e]; [|exact S].
    destruct w; match goal with |- context [let '(_, _) := ?u in _] => destruct u as [ks r'] end; cbn [fst]; rewrite sig_put_back; exact S.
  Qed.
  Lemma sig_perform E c : sig (e_ents (fst (e_perform E c))) = sig (e_ents E).
  Proof.
    destruct c as [x|x val w|x val v w|x val mat w|x val mat w fd td db|x val v w|x val mat w|x val mat w fd td db]; cbn [e_perform e_opt fst].
    - apply sig_e_forward.
    - apply sig_mjp.
    - unfold e_jvp. destruct w; [| |reflexivity].
      + pose proof (sig_jvp_in (e_ents E) x (e_fm E) v) as S. destruct (e_seq_jvp_in _ _ _ _) as [[es fm] r]. exact S.
      + pose proof (sig_jvp_w (e_ents E) x (e_fm E) v 0 None) as S. destruct (e_seq_jvp_w _ _ _ _ _ _) as [[es fm] r]. exact S.
    - unfold e_jmp. destruct (wrt_ok w); [|reflexivity]. destruct mat as [mt|]; [|apply sig_mjp].
      destruct w.
      + pose proof (sig_jmp_in (e_ents E) x (e_fm E) (Some mt)) as S. destruct (e_seq_jmp_in _ _ _ _) as [[es fm] r]. exact S.
      + pose proof (sig_jmp_w (e_ents E) x (e_fm E) mt 0 None) as S. destruct (e_seq_jmp_w _ _ _ _ _ _) as [[es fm] r]. exact S.
      + pose proof (sig_jmp_in (e_ents E) x (e_fm E) (Some mt)) as S. destruct (e_seq_jmp_in _ _ _ _) as [[es fm] r]. exact S.
    - unfold e_jmjTp. destruct (db_ok fd td db); [|reflexivity]. pose proof (sig_ensure E x val) as S.
      destruct (e_ensure E x val) as [E1 [y|e]]; [|exact S]. cbn [fst] in S. destruct w.
      + destruct (match mat with VNone => _ | _ => _ end) as [mt fd1].
        destruct (seq_jmjTp_in _ _ _ _ _ _ _ _ _ _) as [ks r]. cbn [fst]. rewrite sig_put_back. exact S.
      + destruct (bind _ _) as [[bs fd1]|e]; [|exact S]. destruct (seq_jmjTp_w _ _ _ _ _ _ _ _ _ _ _) as [ks r]. cbn [fst]. rewrite sig_put_back. exact S.
      + exact S.
    - apply sig_vjp.
    - apply sig_mjp.
    - unfold e_jTmjp. destruct (db_ok fd td db); [|reflexivity]. pose proof (sig_ensure E x val) as S.
      destruct (e_ensure E x val) as [E1 r]. cbn [fst] in S. destruct (bind r _) as [[mt fd1]|e]; [|exact S].
      destruct w; match goal with |- context [let '(_, _) := ?u in _] => destruct u as [ks r'] end; cbn [fst]; rewrite sig_put_back; exact S.
  Qed.

  (** *** what the edits do to the two lists *)
  Lemma mods_run_sig es : mods (run_of es) = map snd (filter (fun p => runs (fst p)) (sig es)).
  Proof. unfold mods, run_of, sig. induction es as [|e es IH]; [reflexivity|]. cbn. destruct (runs (e_mark e)); cbn; congruence. Qed.
  Lemma mods_old_sig es : mods (old_of es) = map snd (filter (fun p => listed (fst p)) (sig es)).
  Proof. unfold mods, old_of, sig. induction es as [|e es IH]; [reflexivity|]. cbn. destruct (listed (e_mark e)); cbn; congruence. Qed.
  Lemma insert_run m es : forall i, i <= length (mods (run_of es)) ->
    mods (run_of (insert_at i m es)) = firstn i (mods (run_of es)) ++ m :: skipn i (mods (run_of es)).
  Proof.
    induction es as [|[g m' s] es IH]; intros i L; [destruct i; [reflexivity|cbn in L; lia]|].
    destruct i as [|j]; [reflexivity|]. cbn [insert_at]. unfold run_of in *. cbn [filter e_mark]. destruct (runs g) eqn:R.
    - cbn [filter e_mark] in L. rewrite R in L. cbn [mods map length] in L. cbn [mods map e_mod firstn skipn app]. f_equal. apply IH. unfold mods. lia.
    - cbn [filter e_mark] in L. rewrite R in L. apply IH. exact L.
  Qed.
  Lemma insert_old m es : forall i, old_of (insert_at i m es) = old_of es.
  Proof.
    induction es as [|e es IH]; intros i; [destruct i; reflexivity|]. destruct i as [|j]; [reflexivity|].
    cbn [insert_at]. unfold old_of in *. cbn [filter]. now rewrite IH.
  Qed.
  Lemma delete_run es : forall i, i < length (mods (run_of es)) ->
    mods (run_of (delete_at i es)) = firstn i (mods (run_of es)) ++ skipn (S i) (mods (run_of es)).
  Proof.
    induction es as [|[g m' s] es IH]; intros i L; [cbn in L; lia|].
    cbn [delete_at e_mark]. unfold run_of in *. destruct g.
    - destruct i as [|j]; [reflexivity|]. cbn [filter e_mark runs mods map e_mod firstn skipn app length] in *. f_equal. apply IH. unfold mods. lia.
    - destruct i as [|j]; [reflexivity|]. cbn [filter e_mark runs mods map e_mod firstn skipn app length] in *. f_equal. apply IH. unfold mods. lia.
    - destruct i; cbn [filter e_mark runs] in *; apply IH; exact L.
  Qed.
  Lemma delete_old es : forall i, mods (old_of (delete_at i es)) = mods (old_of es).
  Proof.
    induction es as [|[g m' s] es IH]; intros i; [reflexivity|].
    cbn [delete_at e_mark]. unfold old_of in *. destruct g, i; cbn [filter e_mark listed mods map e_mod]; try reflexivity; try (f_equal; apply IH); apply IH.
  Qed.
  Lemma replace_list {A} (a : A) : forall i l, i < length l ->
    firstn (S i) (firstn i l ++ a :: skipn i l) ++ skipn (S (S i)) (firstn i l ++ a :: skipn i l) = firstn i l ++ a :: skipn (S i) l.
  Proof.
    induction i as [|i IH]; intros l L.
    - destruct l as [|b l]; [cbn in L; lia|]. reflexivity.
    - destruct l as [|b l]; [cbn in L; lia|]. cbn [firstn skipn app length] in *. f_equal. apply IH. lia.
  Qed.
  Lemma step_lists E s : step_ok (mods (running E)) s ->
    mods (running (do_step E s)) = list_step (mods (running E)) s /\ mods (old_list (do_step E s)) = mods (old_list E).
  Proof.
    change (running E) with (run_of (e_ents E)). change (old_list E) with (old_of (e_ents E)).
    change (running (do_step E s)) with (run_of (e_ents (do_step E s))). change (old_list (do_step E s)) with (old_of (e_ents (do_step E s))).
    destruct s as [m|i m|i|i m|c]; cbn [step_ok do_step list_step]; intros O.
    - unfold append, run_of, old_of, mods. cbn [e_ents]. rewrite !filter_app, !map_app. cbn. now rewrite app_nil_r.
    - unfold insert. cbn [e_ents]. now rewrite (insert_run m _ i O), insert_old.
    - unfold delete. cbn [e_ents]. now rewrite (delete_run _ i O), delete_old.
    - unfold assign, delete, insert. cbn [e_ents]. rewrite delete_run, delete_old, insert_run, insert_old by
        (try (rewrite insert_run by lia; rewrite app_length, firstn_length; cbn [length]; rewrite skipn_length; lia); lia).
      split; [|reflexivity]. now apply replace_list.
    - rewrite mods_run_sig, mods_old_sig, sig_perform, <- mods_run_sig, <- mods_old_sig. now split.
  Qed.
  Lemma exec_lists p : forall E, program_ok (mods (running E)) p ->
    mods (running (exec E p)) = list_edits (mods (running E)) p /\ mods (old_list (exec E p)) = mods (old_list E).
  Proof.
    induction p as [|s p IH]; intros E O; [now split|]. destruct O as [O1 O2]. destruct (step_lists E s O1) as [R L].
    cbn [exec list_edits fold_left]. rewrite <- R in O2. destruct (IH _ O2) as [R' L'].
    unfold exec, list_edits in *. rewrite R', L', R, L. now split.
  Qed.
  Lemma construct_lists (ms : list (module K)) : mods (running (construct ms)) = ms /\ mods (old_list (construct ms)) = ms.
  Proof.
    unfold running, old_list, construct, mods. cbn [e_ents].
    induction ms as [|m ms [A B]]; [now split|]. cbn [map filter e_mark runs listed e_mod]. split; congruence.
  Qed.
  Lemma program_lists (ms : list (module K)) p : program_ok ms p ->
    mods (running (exec (construct ms) p)) = list_edits ms p /\ mods (old_list (exec (construct ms) p)) = ms.
  Proof.
    intros O. destruct (construct_lists ms) as [A B]. pose proof (exec_lists p (construct ms)) as X. rewrite A, B in X. now apply X.
  Qed.

  (** *** forward, jvp and jmp run through the current layers *)
  Lemma forward_is es : forall x fm fm', snd (e_seq_forward es x fm) = snd (seq_forward forward true (mods (run_of es)) (states (run_of es)) x fm').
  Proof.
    induction es as [|[g m s] es IH]; intros x fm fm'; [reflexivity|]. unfold run_of in *. cbn [e_seq_forward filter e_mark].
    destruct (runs g).
    - cbn [mods states map e_mod e_st seq_forward kid_split]. destruct (forward m s x) as [s1 [y|e]]; [|reflexivity].
      specialize (IH y (hook_push (has_hook g) fm y) (hook_push true fm' y)). unfold mods, states in *.
      destruct (e_seq_forward es y _) as [[es' f1] r]. destruct (seq_forward _ _ _ _ _ _) as [[ks f2] r2]. exact IH.
    - specialize (IH x fm fm'). destruct (e_seq_forward es x fm) as [[es' f1] r]. exact IH.
  Qed.
  Lemma jvp_in_is es : forall x fm fm' v, snd (e_seq_jvp_in es x fm v) = snd (seq_jvp_in jvp true (mods (run_of es)) (states (run_of es)) x fm' v).
  Proof.
    induction es as [|[g m s] es IH]; intros x fm fm' v; [reflexivity|]. unfold run_of in *. cbn [e_seq_jvp_in filter e_mark].
    destruct (runs g).
    - cbn [mods states map e_mod e_st seq_jvp_in kid_split]. destruct (forward m s x) as [s1 [y|e]]; [|reflexivity].
      destruct (jvp m s1 x (Some y) v Input) as [s2 r2]. destruct (bind r2 _) as [v1|e]; [|reflexivity].
      specialize (IH y (hook_push (has_hook g) fm y) (hook_push true fm' y) v1). unfold mods, states in *.
      destruct (e_seq_jvp_in es y _ v1) as [[es' f1] r]. destruct (seq_jvp_in _ _ _ _ _ _ _) as [[ks f2] r3]. exact IH.
    - specialize (IH x fm fm' v). destruct (e_seq_jvp_in es x fm v) as [[es' f1] r]. exact IH.
  Qed.
  Lemma jmp_in_is es : forall x fm fm' v, snd (e_seq_jmp_in es x fm v) = snd (seq_jmp_in jmp true (mods (run_of es)) (states (run_of es)) x fm' v).
  Proof.
    induction es as [|[g m s] es IH]; intros x fm fm' v; [reflexivity|]. unfold run_of in *. cbn [e_seq_jmp_in filter e_mark].
    destruct (runs g).
    - cbn [mods states map e_mod e_st seq_jmp_in kid_split]. destruct (forward m s x) as [s1 [y|e]]; [|reflexivity].
      destruct (jmp m s1 x (Some y) v Input) as [s2 [v1|e]]; [|reflexivity].
      specialize (IH y (hook_push (has_hook g) fm y) (hook_push true fm' y) v1). unfold mods, states in *.
      destruct (e_seq_jmp_in es y _ v1) as [[es' f1] r]. destruct (seq_jmp_in _ _ _ _ _ _ _) as [[ks f2] r3]. exact IH.
    - specialize (IH x fm fm' v). destruct (e_seq_jmp_in es x fm v) as [[es' f1] r]. exact IH.
  Qed.
  Lemma jvp_w_is es : forall x fm fm' v p acc,
    snd (e_seq_jvp_w es x fm v p acc) = snd (seq_jvp_w jvp true (mods (run_of es)) (states (run_of es)) x fm' v p acc).
  Proof.
    induction es as [|[g m s] es IH]; intros x fm fm' v p acc; [reflexivity|]. unfold run_of in *. cbn [e_seq_jvp_w filter e_mark].
    destruct (runs g).
    - cbn [mods states map e_mod e_st seq_jvp_w kid_split]. destruct (forward m s x) as [s1 [y|e]]; [|reflexivity].
      destruct (match acc with Some a => jvp m s1 x (Some y) a Input | None => (s1, Ok None) end) as [s2 r2].
      destruct (bind r2 _) as [[acc1 vp]|e]; [|reflexivity]. destruct (jvp m s2 x (Some y) vp Weight) as [s3 r3].
      destruct (bind r3 _) as [acc2|e]; [|reflexivity].
      specialize (IH y (hook_push (has_hook g) fm y) (hook_push true fm' y) v (p + n_params m) acc2). unfold mods, states in *.
      destruct (e_seq_jvp_w es y _ v _ acc2) as [[es' f1] r]. destruct (seq_jvp_w _ _ _ _ _ _ _ _ _) as [[ks f2] r4]. exact IH.
    - specialize (IH x fm fm' v p acc). destruct (e_seq_jvp_w es x fm v p acc) as [[es' f1] r]. exact IH.
  Qed.
  Lemma jmp_w_is es : forall x fm fm' v p acc,
    snd (e_seq_jmp_w es x fm v p acc) = snd (seq_jmp_w jmp true (mods (run_of es)) (states (run_of es)) x fm' v p acc).
  Proof.
    induction es as [|[g m s] es IH]; intros x fm fm' v p acc; [reflexivity|]. unfold run_of in *. cbn [e_seq_jmp_w filter e_mark].
    destruct (runs g).
    - cbn [mods states map e_mod e_st seq_jmp_w kid_split]. destruct (forward m s x) as [s1 [y|e]]; [|reflexivity].
      destruct (match acc with Some a => jmp m s1 x (Some y) (Some a) Input | None => (s1, Ok None) end) as [s2 r2].
      destruct (bind r2 _) as [[acc1 vp]|e]; [|reflexivity]. destruct (jmp m s2 x (Some y) (Some vp) Weight) as [s3 r3].
      destruct (bind r3 _) as [acc2|e]; [|reflexivity].
      specialize (IH y (hook_push (has_hook g) fm y) (hook_push true fm' y) v (p + n_params m) acc2). unfold mods, states in *.
      destruct (e_seq_jmp_w es y _ v _ acc2) as [[es' f1] r]. destruct (seq_jmp_w _ _ _ _ _ _ _ _ _) as [[ks f2] r4]. exact IH.
    - specialize (IH x fm fm' v p acc). destruct (e_seq_jmp_w es x fm v p acc) as [[es' f1] r]. exact IH.
  Qed.
  Lemma forward_mode_input E c : forward_call c = true -> wrt_of c <> Weight ->
    e_answer E c = answer (net_of (running E)) (state_of (running E)) c.
  Proof.
    intros F W. unfold e_answer, answer, net_of, state_of.
    destruct c as [x|x val w|x val v w|x val [mt|] w|x val mat w fd td db|x val v w|x val mat w|x val mat w fd td db]; try discriminate F;
      cbn [e_perform perform e_opt opt_result snd wrt_of] in *.
    - f_equal. unfold e_forward. cbn [forward st_kids st_fm]. pose proof (forward_is (e_ents E) x [x] [x]) as R.
      change (run_of (e_ents E)) with (running E) in R. destruct (e_seq_forward _ _ _) as [[es fm] r]. destruct (seq_forward _ _ _ _ _ _) as [[ks f2] r2]. exact R.
    - f_equal. unfold e_jvp. cbn [jvp st_kids st_fm]. destruct w; [|congruence|reflexivity].
      pose proof (jvp_in_is (e_ents E) x (e_fm E) [] v) as R. change (run_of (e_ents E)) with (running E) in R.
      destruct (e_seq_jvp_in _ _ _ _) as [[es fm] r]. destruct (seq_jvp_in _ _ _ _ _ _ _) as [[ks f2] r2]. cbn [snd] in *. now rewrite R.
    - f_equal. unfold e_jmp. cbn [jmp st_kids st_fm]. destruct w; [|congruence|reflexivity]. cbn [wrt_ok].
      pose proof (jmp_in_is (e_ents E) x (e_fm E) [] (Some mt)) as R. change (run_of (e_ents E)) with (running E) in R.
      destruct (e_seq_jmp_in _ _ _ _) as [[es fm] r]. destruct (seq_jmp_in _ _ _ _ _ _ _) as [[ks f2] r2]. exact R.
  Qed.
  Lemma forward_mode_weight E c : forward_call c = true -> wrt_of c = Weight ->
    e_answer E c = (r <- answer (net_of (running E)) (state_of (running E)) c ;;
                    check (Nat.eqb (count (running E)) (count (old_list E))) AssertionError (Ok r)).
  Proof.
    intros F W. unfold e_answer, answer, net_of, state_of.
    destruct c as [x|x val w|x val v w|x val [mt|] w|x val mat w fd td db|x val v w|x val mat w|x val mat w fd td db]; try discriminate F;
      cbn [e_perform perform e_opt opt_result snd wrt_of] in *; try discriminate W; subst w.
    - unfold e_jvp, e_n_params. cbn [jvp st_kids st_fm].
      pose proof (jvp_w_is (e_ents E) x (e_fm E) [] v 0 None) as R. change (run_of (e_ents E)) with (running E) in R.
      destruct (e_seq_jvp_w _ _ _ _ _ _) as [[es fm] r]. destruct (seq_jvp_w _ _ _ _ _ _ _ _ _) as [[ks f2] r2]. cbn [snd] in *. subst r2.
      destruct r as [r|e]; cbn [bind]; [|reflexivity]. destruct (Nat.eqb _ _); reflexivity.
    - unfold e_jmp, e_n_params. cbn [jmp st_kids st_fm wrt_ok].
      pose proof (jmp_w_is (e_ents E) x (e_fm E) [] mt 0 None) as R. change (run_of (e_ents E)) with (running E) in R.
      destruct (e_seq_jmp_w _ _ _ _ _ _) as [[es fm] r]. destruct (seq_jmp_w _ _ _ _ _ _ _ _ _) as [[ks f2] r2]. cbn [snd] in *. subst r2.
      destruct r as [r|e]; cbn [bind]; [|reflexivity]. destruct (Nat.eqb _ _); reflexivity.
  Qed.
End EditProofs.
