(** What survives calls at other inputs, and how large the hidden state gets. *)
From Coq Require Import List Arith ZArith Lia Bool.
From Verif Require Import Scalar Sums Tensor TensorLemmas Conv Abstract Simple LinearLayer ConvLayer PoolLayer Module Domain Jac TreeBase StateCoh StateSim Leaves Calls ValArg Frozen.
Import ListNotations.
Local Open Scope nat_scope.
Local Open Scope list_scope.

(** *** networks whose layers keep nothing of their own: a layer, a Sequential of layers, a skip connection around such a network *)
Definition stateless {K} (m : module K) : bool := match m with Leaf _ => true | _ => false end.
Fixpoint flat_net {K} (m : module K) : bool :=
  match m with Leaf _ => true | MaxPool _ => false | Seq _ ms => forallb stateless ms | Skip F => flat_net F end.
(** calls that do not start a new forward pass of the whole module: every call with val, and jvp, jmp *)
Definition resumes {K} (c : call K) : bool :=
  match c with
  | Forward _ => false
  | Jvp _ _ _ _ => true
  | Jmp _ _ (Some _) _ => true
  | c => match given_val c with Some _ => true | None => false end
  end.

Section Grow.
  Context {K} `{Num K}.
  Notation T := (tensor K).
  Implicit Types (s : st K) (x : T).

  Fixpoint grows (m : module K) (s s' : st K) : Prop :=
    match m with
    | Seq _ _ => exists out, st_fm s' = st_fm s ++ out
    | Skip F => grows F (st_kid s) (st_kid s')
    | _ => True
    end.
  Lemma grows_refl m : forall s, grows m s s.
  Proof. induction m; cbn; auto. intros s. exists []. now rewrite app_nil_r. Qed.
  Lemma grows_trans m : forall s1 s2 s3, grows m s1 s2 -> grows m s2 s3 -> grows m s1 s3.
  Proof. induction m; cbn; eauto. intros s1 s2 s3 [o1 E1] [o2 E2]. exists (o1 ++ o2). now rewrite E2, E1, app_assoc. Qed.
  Lemma grows_kid F s k : grows F (st_kid s) k -> grows (Skip F) s (set_kid s k). Proof. exact (fun h => h). Qed.

  Definition ext (fm fm' : list T) : Prop := exists out, fm' = fm ++ out.
  Lemma ext_push h fm y fm' : ext (hook_push h fm y) fm' -> ext fm fm'.
  Proof. intros [o ->]. destruct h; cbn; [exists (y :: o)|exists o]; auto. now rewrite <- app_assoc. Qed.
  Lemma ext_refl fm : ext fm fm. Proof. exists []. now rewrite app_nil_r. Qed.
  Lemma ext_push0 h fm y : ext fm (hook_push h fm y). Proof. apply (ext_push h fm y), ext_refl. Qed.
  Hint Resolve ext_refl ext_push0 : core.

  Lemma seq_jvp_ext f h ms : forall ks x fm v, ext fm (snd (fst (seq_jvp_in f h ms ks x fm v))) /\
    forall p acc, ext fm (snd (fst (seq_jvp_w f h ms ks x fm v p acc))).
  Proof.
    induction ms as [|m ms IH]; intros ks x fm v; [split; intros; apply ext_refl|].
    cbn [seq_jvp_in seq_jvp_w]. destruct (kid_split ks) as [k l]. destruct (forward m k x) as [k2 [y|]]; [|cbn; auto]. split; [|intros p acc].
    - destruct (f m k2 x (Some y) v Input) as [k3 r3]. destruct (bind r3 _) as [v1|]; [|cbn; auto].
      destruct (IH l y (hook_push h fm y) v1) as [I1 _]. destruct seq_jvp_in as [[? ?] ?]. exact (ext_push _ _ _ _ I1).
    - match goal with |- context [match ?q with (k, r) => match bind r _ with _ => _ end end] => destruct q as [k3 r3] end.
      destruct (bind r3 _) as [[acc1 vp]|]; [|cbn; auto].
      destruct (f m k3 x (Some y) vp Weight) as [k4 r4]. destruct (bind r4 _) as [a|]; [|cbn; auto].
      destruct (IH l y (hook_push h fm y) v) as [_ I2]. specialize (I2 (p + n_params m) a). destruct seq_jvp_w as [[? ?] ?]. exact (ext_push _ _ _ _ I2).
  Qed.
  Lemma seq_jmp_ext f h ms : forall ks x fm, (forall v, ext fm (snd (fst (seq_jmp_in f h ms ks x fm v)))) /\
    forall v p acc, ext fm (snd (fst (seq_jmp_w f h ms ks x fm v p acc))).
  Proof.
    induction ms as [|m ms IH]; intros ks x fm; [split; intros; apply ext_refl|].
    cbn [seq_jmp_in seq_jmp_w]. destruct (kid_split ks) as [k l]. destruct (forward m k x) as [k2 [y|]]; [|cbn; auto]. split; [intros v|intros v p acc].
    - destruct (f m k2 x (Some y) v Input) as [k3 [v1|]]; [|cbn; auto].
      destruct (IH l y (hook_push h fm y)) as [I1 _]. specialize (I1 v1). destruct seq_jmp_in as [[? ?] ?]. exact (ext_push _ _ _ _ I1).
    - match goal with |- context [match ?q with (k, r) => match bind r _ with _ => _ end end] => destruct q as [k3 r3] end.
      destruct (bind r3 _) as [[acc1 vp]|]; [|cbn; auto].
      destruct (f m k3 x (Some y) (Some vp) Weight) as [k4 r4]. destruct (bind r4 _) as [a|]; [|cbn; auto].
      destruct (IH l y (hook_push h fm y)) as [_ I2]. specialize (I2 v (p + n_params m) a). destruct seq_jmp_w as [[? ?] ?]. exact (ext_push _ _ _ _ I2).
  Qed.

  Lemma jvp_grows m : forall s x val v w, grows m s (fst (jvp m s x val v w)).
  Proof.
    induction m as [l|c|h ms|F IH]; intros s x val v w; try exact I.
    - cbn [jvp]. destruct (seq_jvp_ext jvp h ms (st_kids s) x (st_fm s) v) as [I1 I2]. specialize (I2 0 None).
      destruct w; [destruct seq_jvp_in as [[? ?] ?]|destruct seq_jvp_w as [[? ?] ?]|apply grows_refl]; auto.
    - cbn [jvp]. destruct (bind _ _) as [[[b l] t]|]; [|apply grows_refl]. specialize (IH (st_kid s) x t v w).
      destruct (jvp F (st_kid s) x t v w). now apply grows_kid.
  Qed.
  Lemma jmp_grows m : forall s x val v w, grows m s (fst (jmp m s x val (Some v) w)).
  Proof.
    induction m as [l|c|h ms|F IH]; intros s x val v w; try exact I.
    - cbn [jmp]. destruct (wrt_ok w); [|apply grows_refl]. destruct (seq_jmp_ext jmp h ms (st_kids s) x (st_fm s)) as [I1 I2]. specialize (I1 (Some v)). specialize (I2 v 0 None).
      destruct w; [destruct seq_jmp_in as [[? ?] ?]|destruct seq_jmp_w as [[? ?] ?]|destruct seq_jmp_in as [[? ?] ?]]; auto.
    - cbn [jmp]. destruct (bind _ _) as [[[b l] t]|]; [|apply grows_refl]. specialize (IH (st_kid s) x t v w).
      destruct (jmp F (st_kid s) x t (Some v) w). now apply grows_kid.
  Qed.
  Lemma jmjTp_grows m : forall s x y v w fd td db, grows m s (fst (jmjTp m s x (Some y) v w fd td db)).
  Proof.
    induction m as [l|c|h ms|F IH]; intros s x y v w fd td db; try exact I.
    - cbn [jmjTp ensure]. destruct (db_ok fd td db); [|apply grows_refl]. destruct w; [| |apply grows_refl].
      + destruct (match v with VNone => _ | _ => _ end) as [mt fd1]. destruct seq_jmjTp_in. exists []. now rewrite app_nil_r.
      + destruct (bind _ _) as [[bs fd1]|]; [|apply grows_refl]. destruct seq_jmjTp_w. exists []. now rewrite app_nil_r.
    - cbn [jmjTp ensure]. destruct (db_ok fd td db); [|apply grows_refl]. cbn [bind]. destruct (bind _ _) as [[[[b0 l1] l2] t]|]; [|apply grows_refl].
      specialize (IH (st_kid s) x t v w fd td db). destruct (jmjTp F _ x _ v w fd td db) as [k r2]. cbn [fst] in IH.
      pose proof (grows_kid F s k IH) as C2. destruct r2 as [j|]; auto. destruct w; auto. destruct td; auto.
      destruct (bind (to_tensor v) _) as [mt|]; auto. change (st_kid (set_kid s k)) with k.
      pose proof (jmp_grows F k x (Some t) mt Input) as Ck. destruct (jmp F k x (Some t) (Some mt) Input) as [k3 r3]. cbn [fst] in Ck.
      assert (C3 : grows (Skip F) s (set_kid (set_kid s k) k3)) by (apply (grows_trans F _ k); auto).
      destruct (bind r3 _) as [jm|]; auto. destruct fd; auto. destruct (transpose12 n0 mt) as [mtT|]; auto.
      change (st_kid (set_kid (set_kid s k) k3)) with k3.
      pose proof (jmp_grows F k3 x (Some t) mtT Input) as Ck4. destruct (jmp F k3 x (Some t) (Some mtT) Input) as [k4 r4]. cbn [fst] in Ck4.
      apply (grows_trans F _ k3); auto.
  Qed.
  Lemma resumes_grows m s c : clean m s -> resumes c = true -> grows m s (fst (perform m s c)).
  Proof.
    intros C R. destruct c as [| |x val v w|x val mat w|x val mat w fd td db|x val v w|x val mat w|x val mat w fd td db]; try discriminate.
    - destruct val; try discriminate. rewrite (perform_frozen _ _ _ C); auto; [apply grows_refl|discriminate].
    - apply jvp_grows.
    - destruct mat as [mat|]; [apply jmp_grows|]. destruct val as [y|]; try discriminate. cbn [perform opt_result fst].
      replace (fst (jmp m s x (Some y) None w)) with s; [apply grows_refl|]. pose proof (jacobian_frozen m s x y w C) as J.
      destruct m as [l|cfg|h ms|F]; cbn [jmp] in *; auto. destruct (wrt_ok w); auto.
    - destruct val; try discriminate. apply jmjTp_grows.
    - destruct val; try discriminate. rewrite (perform_frozen _ _ _ C); auto; [apply grows_refl|discriminate].
    - destruct val; try discriminate. rewrite (perform_frozen _ _ _ C); auto; [apply grows_refl|destruct mat; discriminate].
    - destruct val; try discriminate. rewrite (perform_frozen _ _ _ C); auto; [apply grows_refl|discriminate].
  Qed.
  Lemma cleans_stateless (ms : list (module K)) : forallb stateless ms = true -> forall ks, cleans clean ms ks -> ks = repeat st0 (length ms).
  Proof.
    induction ms as [|m ms IH]; intros E [|k ks] C; try (now destruct C); auto. cbn [forallb] in E. apply andb_prop in E. destruct E as [E1 E2]. destruct C as [C1 C2].
    destruct m; try discriminate. cbn in C1. subst. cbn. f_equal. auto.
  Qed.
  Lemma grows_coh (m : module K) : flat_net m = true -> forall s s' x, clean m s -> clean m s' -> grows m s s' -> coh m s x -> coh m s' x.
  Proof.
    induction m as [l|c|h ms|F IH]; intros E s s' x C C' G Ch; try discriminate; auto.
    - destruct s' as [fm i ks]. eapply coh_Seq; [exact Ch|exact G|]. cbn [flat_net] in E. destruct C as [_ C], C' as [_ C'].
      cbn [st_kids] in C'. rewrite (cleans_stateless ms E _ C'). rewrite <- (cleans_stateless ms E _ C). apply Ch.
    - cbn [coh]. destruct C as (_ & _ & _ & C), C' as (_ & _ & C1 & C'). split; auto. apply (IH E (st_kid s)); auto. apply Ch.
  Qed.
End Grow.

Section Hist.
  Context {K} `{CR : CRing K}.
  Notation T := (tensor K).
  Lemma history_resumes (m : module K) s s' b x y hist cs c h' : flat_net m = true -> typed m s s' -> 0 < b -> wf x -> shape x = b :: s -> fwd m x = Ok y ->
    Forall (fun c => point c = x \/ resumes c = true) cs -> point c = x -> wrt_of c <> Other -> is_skip m = false \/ whole_jacobian c = false ->
    answer m (run m (init m) (hist ++ Forward x :: cs)) (pass_val (Some y) c) = answer m h' (pass_val None c).
  Proof.
    intros E Ty Hb Wx Sx Fy Hcs Hp Hw Hk. symmetry. apply (call_val m s s' b x y); auto.
    unfold run. rewrite fold_left_app. change (fold_left _ hist (init m)) with (run m (init m) hist). cbn [fold_left].
    pose proof (run_clean m hist) as C. revert C. generalize (run m (init m) hist). intros h C.
    assert (C1 : clean m (fst (perform m h (Forward x)))) by now apply perform_clean.
    assert (Q1 : coh m (fst (perform m h (Forward x))) x) by now apply (typed_coh BF BPF m s s' Ty b).
    revert C1 Q1. generalize (fst (perform m h (Forward x))). clear h C. induction Hcs as [|c1 cs Hc Hcs IH]; intros h C1 Q1; auto. cbn [fold_left].
    apply IH; [now apply perform_clean|]. destruct Hc as [Hc|Hc].
    - now apply (perform_keeps m s s' b).
    - apply (grows_coh m E h); auto; [now apply perform_clean|now apply resumes_grows].
  Qed.

  Lemma shrinks_body (ms : list (module K)) : (forall ks x fm y, cleans clean ms ks -> snd (seq_forward forward true ms ks x fm) = Ok y ->
       cleans bounded ms (fst (fst (seq_forward forward true ms ks x fm))) /\ length (snd (fst (seq_forward forward true ms ks x fm))) = length fm + length ms) ->
    forall st x y, clean (Seq true ms) st -> snd (forward (Seq true ms) st x) = Ok y -> bounded (Seq true ms) (fst (forward (Seq true ms) st x)).
  Proof.
    intros IH st x y [A B] E. cbn [forward] in *. specialize (IH (st_kids st) x [x]). destruct seq_forward as [[ks fm] r]. cbn [fst snd] in *.
    destruct (IH y B E) as [I1 I2]. repeat split; auto. cbn in *. lia.
  Qed.
  (** a forward pass that succeeds brings the state back to its normal size *)
  Lemma forward_shrinks : (forall (m : module K) s s', typed m s s' -> forall st x y, clean m st -> snd (forward m st x) = Ok y -> bounded m (fst (forward m st x))) /\
    (forall (ms : list (module K)) s s', typed_seq ms s s' -> forall ks x fm y, cleans clean ms ks -> snd (seq_forward forward true ms ks x fm) = Ok y ->
       cleans bounded ms (fst (fst (seq_forward forward true ms ks x fm))) /\ length (snd (fst (seq_forward forward true ms ks x fm))) = length fm + length ms).
  Proof.
    apply typed_both.
    - intros l s s' L st x y C _. exact C.
    - intros c s s' Ty st x y C. cbn [forward]. destruct (max_pool2d c x) as [[v i]|]; auto.
    - intros ms s s' Ty IH. exact (shrinks_body ms IH).
    - intros ms c c' r Ty IH st x y (A & B & C & D) E. pose proof (shrinks_body ms IH) as IH1. clear IH. rename IH1 into IH. remember (Seq true ms) as F. cbn [forward] in *.
      assert (I1 : exists y1, snd (forward F (st_kid st) x) = Ok y1). { destruct (forward F (st_kid st) x) as [k [y1|]]; [exists y1; auto|discriminate]. }
      destruct I1 as [y1 I1]. specialize (IH _ x y1 D I1). destruct (forward F (st_kid st) x) as [k q]. cbn [fst bounded] in *. change (st_kid (set_kid st k)) with k. repeat split; auto.
    - intros s Hs [|] x fm y C E; [|destruct C]. cbn. split; auto.
    - intros m ms s s1 s' Tm IHm Ts IHs ks x fm y C E. destruct (cleans_split _ _ _ C) as (k1 & l & -> & Cm & Cs). cbn [seq_forward kid_split] in *.
      specialize (IHm k1 x). destruct (forward m k1 x) as [k2 [y1|]]; [|discriminate]. specialize (IHm y1 Cm eq_refl). cbn [fst snd] in *.
      specialize (IHs l y1 (hook_push true fm y1)). destruct seq_forward as [[ks fm1] r]. cbn [fst snd] in *. destruct (IHs y Cs E) as [I1 I2].
      split; [split; auto|]. cbn [hook_push] in I2. rewrite app_length in I2. cbn [length] in *. lia.
  Qed.
  Lemma run_forward_stored (m : module K) s s' b x hist : typed m s s' -> 0 < b -> wf x -> shape x = b :: s ->
    stored (run m (init m) (hist ++ [Forward x])) <= slots m.
  Proof.
    intros Ty Hb Wx Sx. unfold run. rewrite fold_left_app. change (fold_left _ hist (init m)) with (run m (init m) hist). cbn [fold_left perform fst].
    destruct (typed_fwd BF BPF m s s' Ty b x Hb Wx Sx) as (y & Fy & _).
    apply bounded_stored, (proj1 forward_shrinks m s s' Ty _ x y (run_clean m hist)). now rewrite forward_pure.
  Qed.
  Lemma forward_answer (m : module K) hist x : answer m (run m (init m) hist) (Forward x) = answer m (init m) (Forward x).
  Proof. unfold answer. cbn [perform snd]. now rewrite !forward_pure. Qed.
End Hist.
