(** Networks edited after construction: the products that run through the old list of layers. *)
From Coq Require Import List Arith ZArith Lia Bool.
From Verif Require Import Scalar Tensor Conv Abstract Simple Module Calls Edit EditSpec EditProofs.
Import ListNotations.
Local Open Scope nat_scope.
Local Open Scope list_scope.

Section EditMain.
  Context {K} `{CR : CRing K}.
  Notation T := (tensor K).
  Implicit Types (es : list (lobj K)) (E : edited K).

  (** *** too few feature maps *)
  Definition kept_of es := filter (fun e => has_hook (e_mark e)) es.
  Lemma fm_length es : forall x fm es' fm' y, e_seq_forward es x fm = (es', fm', Ok y) -> length fm' = length fm + length (kept_of es).
  Proof.
    unfold kept_of. induction es as [|[g m s] es IH]; intros x fm es' fm' y; cbn [e_seq_forward filter e_mark].
    - intros [= _ <- _]. cbn. lia.
    - destruct (runs g) eqn:R.
      + destruct (forward m s x) as [s1 [z|e]]; [|discriminate]. destruct (e_seq_forward es z _) as [[es1 f1] r] eqn:F.
        intros [= _ <- ->]. rewrite (IH _ _ _ _ _ F). destruct g; cbn [has_hook hook_push length]; [rewrite app_length; cbn [length]; lia|lia|discriminate R].
      + destruct g; try discriminate R. destruct (e_seq_forward es x fm) as [[es1 f1] r] eqn:F. intros [= _ <- ->].
        rewrite (IH _ _ _ _ _ F). cbn [has_hook]. lia.
  Qed.
  Definition marks es := map (@e_mark K) es.
  Lemma sig_marks es es' : sig es = sig es' -> marks es = marks es'.
  Proof. unfold sig, marks. intros S. apply (f_equal (map fst)) in S. rewrite !map_map in S. exact S. Qed.
  Lemma sig_old es es' : sig es = sig es' -> mods (old_of es) = mods (old_of es').
  Proof. intros S. now rewrite !mods_old_sig, S. Qed.
  Lemma kept_old es : In Removed (marks es) -> length (kept_of es) < length (old_of es).
  Proof.
    unfold kept_of, old_of, marks.
    assert (L : forall es : list (lobj K), length (filter (fun e => has_hook (e_mark e)) es) <= length (filter (fun e => listed (e_mark e)) es)).
    { induction es0 as [|[g m s] l IH]; [cbn; lia|]. cbn [filter e_mark]. destruct g; cbn [has_hook listed length]; lia. }
    induction es as [|[g m s] es IH]; [intros []|]. cbn [map filter e_mark]. intros [->|I].
    - cbn [has_hook listed length]. specialize (L es). lia.
    - specialize (IH I). destruct g; cbn [has_hook listed length]; lia.
  Qed.
  Lemma fmap2_short (fm : list T) k : length fm <= S k -> fmap2 true fm k = Raise IndexError.
  Proof.
    intros L. unfold fmap2, fmap_at. assert (N : nth_error fm (S k) = None) by (apply nth_error_None; lia). rewrite N.
    now destruct (nth_error fm k).
  Qed.
  Lemma vjp_in_short f fm ms : forall ks k v, ms <> [] -> length fm <= k + length ms -> snd (seq_vjp_in (K:=K) f true fm ms ks k v) = Raise IndexError.
  Proof.
    induction ms as [|m ms IH]; intros ks k v N L; [congruence|]. cbn [seq_vjp_in]. destruct (kid_split ks) as [s ks1].
    destruct ms as [|m' ms].
    - cbn [seq_vjp_in bind]. rewrite fmap2_short by (cbn [length] in L; lia). reflexivity.
    - specialize (IH ks1 (S k) v). destruct (seq_vjp_in f true fm (m' :: ms) ks1 (S k) v) as [ks2 r]. cbn [snd] in IH.
      rewrite IH by (cbn [length] in *; try lia; discriminate). reflexivity.
  Qed.
  Lemma vjp_w_short f fm ms : forall ks k v, ms <> [] -> length fm <= k + length ms -> snd (seq_vjp_w (K:=K) f true fm ms ks k v) = Raise IndexError.
  Proof.
    induction ms as [|m ms IH]; intros ks k v N L; [congruence|]. cbn [seq_vjp_w]. destruct (kid_split ks) as [s ks1].
    destruct ms as [|m' ms].
    - cbn [seq_vjp_w bind]. rewrite fmap2_short by (cbn [length] in L; lia). reflexivity.
    - specialize (IH ks1 (S k) v). destruct (seq_vjp_w f true fm (m' :: ms) ks1 (S k) v) as [ks2 r]. cbn [snd] in IH.
      rewrite IH by (cbn [length] in *; try lia; discriminate). reflexivity.
  Qed.
  Lemma mjp_in_short f fm ms : forall ks k v, ms <> [] -> length fm <= k + length ms -> snd (seq_mjp_in (K:=K) f true fm ms ks k v) = Raise IndexError.
  Proof.
    induction ms as [|m ms IH]; intros ks k v N L; [congruence|]. cbn [seq_mjp_in]. destruct (kid_split ks) as [s ks1].
    destruct ms as [|m' ms].
    - cbn [seq_mjp_in bind]. rewrite fmap2_short by (cbn [length] in L; lia). reflexivity.
    - specialize (IH ks1 (S k) v). destruct (seq_mjp_in f true fm (m' :: ms) ks1 (S k) v) as [ks2 r]. cbn [snd] in IH.
      rewrite IH by (cbn [length] in *; try lia; discriminate). reflexivity.
  Qed.
  Lemma mjp_w_short f fm ms : forall ks k v, ms <> [] -> length fm <= k + length ms -> snd (seq_mjp_w (K:=K) f true fm ms ks k v) = Raise IndexError.
  Proof.
    induction ms as [|m ms IH]; intros ks k v N L; [congruence|]. cbn [seq_mjp_w]. destruct (kid_split ks) as [s ks1].
    destruct ms as [|m' ms].
    - cbn [seq_mjp_w bind]. rewrite fmap2_short by (cbn [length] in L; lia). reflexivity.
    - specialize (IH ks1 (S k) v). destruct (seq_mjp_w f true fm (m' :: ms) ks1 (S k) v) as [ks2 r]. cbn [snd] in IH.
      rewrite IH by (cbn [length] in *; try lia; discriminate). reflexivity.
  Qed.
  Lemma jTmjp_in_short f fm ms fd td db : forall ks k v, ms <> [] -> length fm <= k + length ms ->
    snd (seq_jTmjp_in (K:=K) f true fm ms ks k v fd td db) = Raise IndexError.
  Proof.
    induction ms as [|m ms IH]; intros ks k v N L; [congruence|]. cbn [seq_jTmjp_in]. destruct (kid_split ks) as [s ks1].
    destruct ms as [|m' ms].
    - cbn [seq_jTmjp_in bind]. rewrite fmap2_short by (cbn [length] in L; lia). reflexivity.
    - specialize (IH ks1 (S k) v). destruct (seq_jTmjp_in f true fm (m' :: ms) ks1 (S k) v fd td db) as [ks2 r]. cbn [snd] in IH.
      rewrite IH by (cbn [length] in *; try lia; discriminate). reflexivity.
  Qed.
  Lemma jTmjp_w_short f fm ms fd td db : forall ks k v, ms <> [] -> length fm <= k + length ms ->
    snd (seq_jTmjp_w (K:=K) f true fm ms ks k v fd td db) = Raise IndexError.
  Proof.
    induction ms as [|m ms IH]; intros ks k v N L; [congruence|]. cbn [seq_jTmjp_w]. destruct (kid_split ks) as [s ks1].
    destruct ms as [|m' ms].
    - cbn [seq_jTmjp_w bind]. rewrite fmap2_short by (cbn [length] in L; lia). reflexivity.
    - specialize (IH ks1 (S k) v). destruct (seq_jTmjp_w f true fm (m' :: ms) ks1 (S k) v fd td db) as [ks2 r]. cbn [snd] in IH.
      rewrite IH by (cbn [length] in *; try lia; discriminate). reflexivity.
  Qed.
  Lemma jmjTp_in_short f fm ms fd td db : forall ks k v, ms <> [] -> length fm <= k + length ms ->
    exists e, snd (seq_jmjTp_in (K:=K) f true fm ms ks k v fd td db) = Raise e.
  Proof.
    induction ms as [|m ms IH]; intros ks k v N L; [congruence|]. cbn [seq_jmjTp_in]. destruct (kid_split ks) as [s ks1].
    destruct ms as [|m' ms].
    - rewrite fmap2_short by (cbn [length] in L; lia). eexists. reflexivity.
    - destruct (fmap2 true fm k) as [[x y]|e]; [|eexists; reflexivity].
      destruct (f m s x (Some y) v Input _ _ _) as [s2 [v2|e]]; [|eexists; reflexivity].
      destruct (IH ks1 (S k) v2) as [e X]; [discriminate|cbn [length] in *; lia|].
      destruct (seq_jmjTp_in f true fm (m' :: ms) ks1 (S k) v2 fd td db) as [ks2 r]. cbn [snd] in *. rewrite X. eexists. reflexivity.
  Qed.
  Lemma removed_short E x y E1 : In Removed (marks (e_ents E)) -> e_forward E x = (E1, Ok y) ->
    mods (old_list E1) <> [] /\ length (e_fm E1) <= 0 + length (mods (old_list E1)).
  Proof.
    intros R F. pose proof (sig_e_forward E x) as S. rewrite F in S. cbn [fst] in S.
    assert (L : length (e_fm E1) = 1 + length (kept_of (e_ents E))).
    { unfold e_forward in F. destruct (e_seq_forward (e_ents E) x [x]) as [[es fm] r] eqn:G. injection F as <- ->. cbn [e_fm].
      now rewrite (fm_length _ _ _ _ _ _ G). }
    pose proof (kept_old _ R) as O. rewrite L. change (old_list E1) with (old_of (e_ents E1)).
    rewrite (sig_old _ _ S). unfold mods. rewrite map_length. split; [|lia].
    intros X. destruct (old_of (e_ents E)); [cbn in O; lia|discriminate X].
  Qed.
  Lemma removed_raises E c : In Removed (marks (e_ents E)) -> listed_call c = true -> given_val c = None ->
    (forall x val mat w fd td db, c = JmjTp x val mat w fd td db -> w = Input) ->
    exists e, e_answer E c = Raise e.
  Proof.
    intros R F V J. unfold e_answer.
    assert (M : forall x mat w, exists e, snd (e_mjp E x None mat w) = Raise e).
    { intros x mat w. unfold e_mjp, e_ensure. destruct (wrt_ok w); [|eexists; reflexivity].
      destruct (e_forward E x) as [E1 [y|e]] eqn:G; [|eexists; reflexivity]. destruct (removed_short E x y E1 R G) as [A B].
      destruct (bind (Ok y) _) as [mt|e]; [|eexists; reflexivity].
      destruct w; match goal with
        | |- context [seq_mjp_in ?f ?h ?fm ?ms ?ks ?k ?v] => pose proof (mjp_in_short f fm ms ks k v A B) as X; destruct (seq_mjp_in f h fm ms ks k v) as [ks' r]
        | |- context [seq_mjp_w ?f ?h ?fm ?ms ?ks ?k ?v] => pose proof (mjp_w_short f fm ms ks k v A B) as X; destruct (seq_mjp_w f h fm ms ks k v) as [ks' r]
        end; cbn [snd] in *; rewrite X; eexists; reflexivity. }
    destruct c as [x|x val w|x val v w|x val [mt|] w|x val mat w fd td db|x val v w|x val mat w|x val mat w fd td db]; try discriminate F;
      cbn [given_val] in V; subst val; cbn [e_perform e_opt snd].
    - destruct (M x None w) as [e X]. unfold e_jacobian. rewrite X. eexists. reflexivity.
    - unfold e_jmp, e_jacobian. destruct (wrt_ok w); [|eexists; reflexivity]. destruct (M x None w) as [e X]. rewrite X. eexists. reflexivity.
    - assert (w = Input) by (eapply J; reflexivity). subst w. unfold e_jmjTp, e_ensure. destruct (db_ok fd td db); [|eexists; reflexivity].
      destruct (e_forward E x) as [E1 [y|e]] eqn:G; [|eexists; reflexivity]. destruct (removed_short E x y E1 R G) as [A B].
      destruct (match mat with VNone => _ | _ => _ end) as [mt fd1].
      destruct (jmjTp_in_short jmjTp (e_fm E1) (mods (old_list E1)) fd1 td db (states (old_list E1)) 0 mt A B) as [e X].
      destruct (seq_jmjTp_in _ _ _ _ _ _ _ _ _ _) as [ks r]. cbn [snd] in *. rewrite X. eexists. reflexivity.
    - unfold e_vjp, e_ensure. destruct (wrt_ok w); [|eexists; reflexivity].
      destruct (e_forward E x) as [E1 [y|e]] eqn:G; [|eexists; reflexivity]. destruct (removed_short E x y E1 R G) as [A B].
      destruct w; match goal with
        | |- context [seq_vjp_in ?f ?h ?fm ?ms ?ks ?k ?v] => pose proof (vjp_in_short f fm ms ks k v A B) as X; destruct (seq_vjp_in f h fm ms ks k v) as [ks' r]
        | |- context [seq_vjp_w ?f ?h ?fm ?ms ?ks ?k ?v] => pose proof (vjp_w_short f fm ms ks k v A B) as X; destruct (seq_vjp_w f h fm ms ks k v) as [ks' r]
        end; cbn [snd] in *; rewrite X; eexists; reflexivity.
    - destruct (M x mat w) as [e X]. rewrite X. eexists. reflexivity.
    - unfold e_jTmjp, e_ensure. destruct (db_ok fd td db); [|eexists; reflexivity].
      destruct (e_forward E x) as [E1 [y|e]] eqn:G; [|eexists; reflexivity]. destruct (removed_short E x y E1 R G) as [A B].
      destruct (bind (Ok y) _) as [[mt fd1]|e]; [|eexists; reflexivity].
      destruct w; match goal with
        | |- context [seq_jTmjp_in ?f ?h ?fm ?ms ?ks ?k ?v ?a ?b ?c] => pose proof (jTmjp_in_short f fm ms a b c ks k v A B) as X; destruct (seq_jTmjp_in f h fm ms ks k v a b c) as [ks' r]
        | |- context [seq_jTmjp_w ?f ?h ?fm ?ms ?ks ?k ?v ?a ?b ?c] => pose proof (jTmjp_w_short f fm ms a b c ks k v A B) as X; destruct (seq_jTmjp_w f h fm ms ks k v a b c) as [ks' r]
        end; cbn [snd] in *; rewrite X; eexists; reflexivity.
  Qed.

  (** *** layers appended at the end *)
  Definition appended es : Prop := exists ks l, es = ks ++ l /\ Forall (fun e => e_mark e = Kept) ks /\ Forall (fun e => e_mark e = Added) l.
  Lemma old_kept (ks l : list (lobj K)) : Forall (fun e => e_mark e = Kept) ks -> Forall (fun e => e_mark e = Added) l -> old_of (ks ++ l) = ks.
  Proof.
    intros A B. unfold old_of. induction A as [|[g m s] ks G A IH]; cbn [app filter e_mark].
    - induction B as [|[g m s] l G B IHB]; [reflexivity|]. cbn in G. subst g. exact IHB.
    - cbn in G. subst g. cbn [listed]. now f_equal.
  Qed.
  Lemma added_forward (l : list (lobj K)) : Forall (fun e => e_mark e = Added) l -> forall x fm,
    snd (fst (e_seq_forward l x fm)) = fm /\ old_of (fst (fst (e_seq_forward l x fm))) = [].
  Proof.
    induction 1 as [|[g m s] l G B IH]; intros x fm; [now split|]. cbn in G. subst g. cbn [e_seq_forward runs has_hook hook_push].
    destruct (forward m s x) as [s1 [y|e]].
    - specialize (IH y fm). destruct (e_seq_forward l y fm) as [[es f1] r]. exact IH.
    - split; [reflexivity|]. cbn [fst]. exact (old_kept [] (Ent Added m s1 :: l) (Forall_nil _) (Forall_cons (Ent Added m s1) eq_refl B)).
  Qed.
  Lemma kept_forward (ks l : list (lobj K)) : Forall (fun e => e_mark e = Kept) ks -> Forall (fun e => e_mark e = Added) l ->
    forall x fm es' fm' y, e_seq_forward (ks ++ l) x fm = (es', fm', Ok y) ->
    exists sts z, seq_forward forward true (mods ks) (states ks) x fm = (sts, fm', Ok z) /\ mods (old_of es') = mods ks /\ states (old_of es') = sts.
  Proof.
    intros A B. induction A as [|[g m s] ks G A IH]; intros x fm es' fm' y F.
    - cbn [app] in F. destruct (added_forward l B x fm) as [X Y]. rewrite F in X, Y. cbn [fst snd] in X, Y. subst fm'. rewrite Y.
      exists [], x. now split.
    - cbn in G. subst g. cbn [app e_seq_forward runs has_hook hook_push] in F. cbn [mods states map e_mod e_st seq_forward kid_split].
      destruct (forward m s x) as [s1 [z|e]]; [|discriminate F].
      destruct (e_seq_forward (ks ++ l) z (fm ++ [z])) as [[es1 f1] r] eqn:G. injection F as <- <- ->.
      destruct (IH _ _ _ _ _ G) as (sts & u & S1 & S2 & S3). cbn [hook_push]. unfold mods, states in *. rewrite S1.
      exists (s1 :: sts), u. unfold old_of in *. cbn [filter e_mark listed map e_mod e_st]. rewrite S2, S3. now repeat split.
  Qed.
  Lemma count_params es : count es = n_params (Seq true (mods es)).
  Proof. unfold count, mods. cbn [n_params]. induction es as [|e es IH]; [reflexivity|]. cbn. now rewrite IH. Qed.
  Lemma forward_mode_weight_params E c : forward_call c = true -> wrt_of c = Weight ->
    e_answer E c = (r <- answer (Seq true (mods (running E))) (St [] None (states (running E))) c ;;
                    if Nat.eqb (n_params (Seq true (mods (running E)))) (n_params (Seq true (mods (old_list E)))) then Ok r else Raise AssertionError).
  Proof. intros F W. rewrite (forward_mode_weight E c F W), !count_params. reflexivity. Qed.
  (** both start by the same forward pass through the old layers *)
  Lemma appended_ensure E x E1 y : appended (e_ents E) -> e_forward E x = (E1, Ok y) ->
    exists sts z, forward (net_of (old_list E)) (state_of (old_list E)) x = (St (e_fm E1) None sts, Ok z) /\
      mods (old_list E1) = mods (old_list E) /\ states (old_list E1) = sts.
  Proof.
    intros (ks & l & D & A & B) F. unfold e_forward in F. rewrite D in F. destruct (e_seq_forward (ks ++ l) x [x]) as [[es fm] r] eqn:G.
    injection F as <- ->. destruct (kept_forward ks l A B _ _ _ _ _ G) as (sts & z & S1 & S2 & S3). exists sts, z.
    change (old_list E) with (old_of (e_ents E)). rewrite D, (old_kept ks l A B). unfold net_of, state_of. cbn [forward st_kids st_idx e_fm].
    rewrite S1. now repeat split.
  Qed.
  Lemma appended_answer E c x y b sh : appended (e_ents E) -> listed_call c = true -> given_val c = None -> point c = x ->
    e_answer E (Forward x) = Ok (VT y) -> shape y = b :: sh ->
    e_answer E c = answer (net_of (old_list E)) (state_of (old_list E)) (spelled b (numel sh) c).
  Proof.
    intros A F V P G Sh. unfold e_answer in G. cbn [e_perform snd] in G. destruct (e_forward E x) as [E1 [y'|e]] eqn:Fw; [|discriminate G].
    cbn [bind snd] in G. injection G as ->. destruct (appended_ensure E x E1 y A Fw) as (sts & z & S1 & S2 & S3).
    set (m := net_of (old_list E)) in *. set (s := state_of (old_list E)) in *. unfold e_answer, answer.
    assert (M : forall mat w, snd (e_mjp E x None mat w) =
                snd (mjp m s x None (match mat with Some mt => Some mt | None => Some (eye_repeat b (numel sh)) end) w)).
    { intros mat w. unfold e_mjp, e_ensure. unfold m, net_of. cbn [mjp]. fold (net_of (old_list E)). fold m. destruct (wrt_ok w); [|reflexivity].
      unfold ensure. rewrite Fw, S1. cbn [bind]. rewrite Sh.
      replace (match match mat with Some mt => Some mt | None => Some (eye_repeat b (numel sh)) end with
               | Some mt => Ok mt | None => match shape z with [] => Raise IndexError | b0 :: sh0 => Ok (eye_repeat b0 (numel sh0)) end end)
        with (match mat with Some mt => Ok mt | None => Ok (eye_repeat b (numel sh)) end) by (destruct mat; reflexivity).
      destruct mat as [mt|]; cbn [st_fm st_kids st_idx]; rewrite S2, S3; unfold mods;
        destruct w; match goal with |- context [let '(_, _) := ?u in _] => destruct u as [ks r] end; reflexivity. }
    destruct c as [x'|x' val w|x' val v w|x' val [mt|] w|x' val mat w fd td db|x' val v w|x' val mat w|x' val mat w fd td db]; try discriminate F;
      cbn [given_val point] in V, P; subst val x'; cbn [e_perform perform e_opt opt_result snd spelled].
    - f_equal. exact (M None w).
    - f_equal. unfold e_jmp. destruct (wrt_ok w) eqn:Wk; [exact (M None w)|]. unfold m, net_of. cbn [mjp]. rewrite Wk. reflexivity.
    - unfold e_jmjTp, e_ensure. unfold m, net_of. cbn [jmjTp]. fold (net_of (old_list E)). fold m. destruct (db_ok fd td db); [|reflexivity].
      unfold ensure. rewrite Fw, S1. cbn [st_fm st_kids st_idx]. rewrite S2, S3. destruct w; [| |reflexivity].
      + destruct (match mat with VNone => _ | _ => _ end) as [mt fd1]. destruct (seq_jmjTp_in _ _ _ _ _ _ _ _ _ _) as [ks r]. reflexivity.
      + unfold e_n_params. rewrite count_params, S2. unfold m, net_of.
        match goal with |- context [bind ?u ?k] => destruct (bind u k) as [[bs fd1]|e] end; [|reflexivity].
        destruct (seq_jmjTp_w _ _ _ _ _ _ _ _ _ _ _) as [ks r]. reflexivity.
    - f_equal. unfold e_vjp, e_ensure. unfold m, net_of. cbn [vjp]. fold (net_of (old_list E)). fold m. destruct (wrt_ok w); [|reflexivity].
      unfold ensure. rewrite Fw, S1. cbn [st_fm st_kids st_idx]. rewrite S2, S3.
      destruct w; match goal with |- context [let '(_, _) := ?u in _] => destruct u as [ks r] end; reflexivity.
    - rewrite (M mat w). destruct mat; reflexivity.
    - assert (J : forall mt fd', mt <> VNone -> db_ok fd' td db = true ->
        snd (jTmjp m s x None mt w fd' td db) =
        snd (match w return st K * res (value K) with
             | Weight =>
                let '(ks, r) := seq_jTmjp_w jTmjp true (e_fm E1) (mods (old_list E)) sts 0 mt fd' td db in
                (@st0 K, '(vs, _) <- r ;; match vs with [] => Ok VNone | _ => if td then ts <- mapM to_tensor vs ;; c' <- cat n0 1 ts ;; Ok (VT c') else Ok (VL vs) end)
             | _ =>
                let '(ks, r) := seq_jTmjp_in jTmjp true (e_fm E1) (mods (old_list E)) sts 0 mt fd' td db in
                (@st0 K, v <- r ;; match w with Input => Ok v | _ => Ok VNone end)
             end)).
      { intros mt fd' Nm D. unfold m, net_of. cbn [jTmjp]. fold (net_of (old_list E)). fold m. rewrite D. unfold ensure. rewrite S1. cbn [bind st_fm st_kids st_idx].
        destruct mt as [|t|vl]; [congruence| |];
          destruct w; match goal with |- context [let '(_, _) := ?u in _] => destruct u as [ks r] end; reflexivity. }
      unfold e_jTmjp, e_ensure. destruct (db_ok fd td db) eqn:D.
      + rewrite Fw. cbn [bind]. rewrite S2, S3. destruct mat as [|t|vl]; cbn [perform snd spelled].
        * rewrite Sh. rewrite J by (try discriminate; unfold db_ok in *; destruct fd, td, db; cbn in *; congruence).
          assert (X : fd || negb db = true) by (unfold db_ok in D; destruct fd, td, db; cbn in *; congruence). rewrite X.
          destruct w; match goal with |- context [let '(_, _) := ?u in _] => destruct u as [ks r] end; reflexivity.
        * rewrite J by (try discriminate; exact D). destruct w; match goal with |- context [let '(_, _) := ?u in _] => destruct u as [ks r] end; reflexivity.
        * rewrite J by (try discriminate; exact D). destruct w; match goal with |- context [let '(_, _) := ?u in _] => destruct u as [ks r] end; reflexivity.
      + destruct mat as [|t|vl]; cbn [perform snd spelled]; unfold m, net_of; cbn [jTmjp].
        * assert (X : db_ok (fd || negb db) td db = false) by (unfold db_ok in *; destruct fd, td, db; cbn in *; congruence). rewrite X. reflexivity.
        * rewrite D. reflexivity.
        * rewrite D. reflexivity.
  Qed.
  Lemma marks_appended es es' : marks es = marks es' -> appended es -> appended es'.
  Proof.
    intros M (ks & l & -> & A & B). unfold marks in M. rewrite map_app in M.
    exists (firstn (length ks) es'), (skipn (length ks) es'). split; [now rewrite firstn_skipn|].
    assert (M1 : map (@e_mark K) ks = map (@e_mark K) (firstn (length ks) es')).
    { rewrite <- firstn_map, <- M, <- (map_length (@e_mark K) ks), firstn_app, Nat.sub_diag, firstn_O, app_nil_r. symmetry. apply firstn_all. }
    assert (M2 : map (@e_mark K) l = map (@e_mark K) (skipn (length ks) es')).
    { rewrite <- skipn_map, <- M, <- (map_length (@e_mark K) ks), skipn_app, Nat.sub_diag, skipn_all. reflexivity. }
    split.
    - apply (Forall_map (@e_mark K) (fun g => g = Kept)). rewrite <- M1. now apply (Forall_map (@e_mark K) (fun g => g = Kept)).
    - apply (Forall_map (@e_mark K) (fun g => g = Added)). rewrite <- M2. now apply (Forall_map (@e_mark K) (fun g => g = Added)).
  Qed.
  Lemma exec_appended p : forall E, only_appends p -> appended (e_ents E) -> appended (e_ents (exec E p)).
  Proof.
    induction p as [|s p IH]; intros E O A; [exact A|]. inversion O as [|? ? O1 O2]; subst. cbn [exec fold_left]. apply (IH _ O2).
    destruct s as [m|i m|i|i m|c]; try contradiction; cbn [do_step].
    - destruct A as (ks & l & D & A & B). unfold append. cbn [e_ents]. rewrite D. exists ks, (l ++ [Ent Added m st0]). split; [now rewrite app_assoc|].
      split; [exact A|]. apply Forall_app. split; [exact B|]. constructor; [reflexivity|constructor].
    - apply (marks_appended (e_ents E)); [|exact A]. symmetry. apply sig_marks. apply sig_perform.
  Qed.
  Lemma construct_appended (ms : list (module K)) : appended (e_ents (construct ms)).
  Proof.
    exists (e_ents (construct ms)), []. rewrite app_nil_r. split; [reflexivity|]. split; [|constructor].
    unfold construct. cbn [e_ents]. induction ms; constructor; [reflexivity|exact IHms].
  Qed.
  Lemma appends_ok p : forall ms : list (module K), only_appends p -> program_ok ms p.
  Proof. induction p as [|s p IH]; intros ms O; [exact I|]. inversion O as [|? ? O1 O2]; subst. split; [destruct s; try contradiction; exact I|now apply IH]. Qed.
  (** programs of calls and appends *)
  Lemma append_program (ms : list (module K)) p c x y b sh : only_appends p ->
    listed_call c = true -> given_val c = None -> point c = x ->
    e_answer (exec (construct ms) p) (Forward x) = Ok (VT y) -> shape y = b :: sh ->
    exists h, e_answer (exec (construct ms) p) c = answer (Seq true ms) h (spelled b (numel sh) c).
  Proof.
    intros O F V P G Sh. exists (state_of (old_list (exec (construct ms) p))).
    rewrite (appended_answer _ c x y b sh (exec_appended p _ O (construct_appended ms)) F V P G Sh).
    unfold net_of. now rewrite (proj2 (program_lists ms p (appends_ok p ms O))).
  Qed.
End EditMain.
