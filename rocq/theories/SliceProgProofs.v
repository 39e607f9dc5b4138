(** Slices made at any time: proofs. *)
From Coq Require Import List Arith ZArith Lia Bool.
From Verif Require Import Scalar Sums Tensor TensorLemmas Conv Abstract Simple LinearLayer ConvLayer PoolLayer Module Spec Domain Jac TreeBase StateCoh StateSim Leaves
  Trees Calls ValArg Frozen History Params Examples Slice SliceProofs SliceMore SliceProg.
Import ListNotations.
Local Open Scope nat_scope.
Local Open Scope list_scope.

Section Proofs.
  Context {K} `{CR : CRing K}.
  Notation T := (tensor K).
  Implicit Types (ms : list (module K)) (W : world K).

  (** the range of Sequential number q *)
  Definition at_q W q : range := nth q (wd_rs W) (0, 0).
  (** events that do not disturb a value saved at x for Sequential number q: new slices; calls on it at x; calls on the others if
      the layers in common are without memory *)
  Fixpoint calm ms (rs : list range) q (x : T) (es : list (event K)) : Prop :=
    match es with
    | [] => True
    | Make r :: es => calm ms (rs ++ [r]) q x es
    | Use q' c :: es => (if q' =? q then point c = x else share_plain ms (nth q rs (0, 0)) (nth q' rs (0, 0))) /\ calm ms rs q x es
    | SetWeight _ _ :: _ => False
    end.

  Lemma set_clean : forall (m : module K) v s, clean m s -> clean (fst (set_params m v)) s.
  Proof.
    refine (module_ind2 (fun m => forall v s, clean m s -> clean (fst (set_params m v)) s)
      (fun ms => forall v ks, cleans clean ms ks -> cleans clean (fst (seq_set set_params ms v)) ks) _ _ _ _ _ _); cbn [set_params seq_set].
    - intros l v s C. destruct (leaf_set l v). exact C.
    - intros c v s C. exact C.
    - intros h ms IH v s [I C]. specialize (IH v _ C). destruct (seq_set set_params ms v). split; auto.
    - intros F IH v s (A & B & D & C). specialize (IH v _ C). destruct (set_params F v). repeat split; auto.
    - intros v ks C. exact C.
    - intros m ms Hm IH v [|k ks] C; [contradiction|]. destruct C as [C Cs]. specialize (Hm v k C). destruct (set_params m v) as [m' [v'|e]]; [|now split].
      specialize (IH v' ks Cs). destruct (seq_set set_params ms v'). now split.
  Qed.
  Lemma set_length ms : forall v, length (fst (seq_set set_params ms v)) = length ms.
  Proof.
    induction ms as [|m ms IH]; intros v; auto. cbn [seq_set]. destruct (set_params m v) as [m' [v'|e]]; auto.
    specialize (IH v'). destruct (seq_set set_params ms v'). cbn in *. congruence.
  Qed.
  Lemma set_slice ms (r : range) w : fst (sh_set_weight ms r w) = paste (fst r) (fst (seq_set set_params (sub r ms) (data w))) ms.
  Proof. unfold sh_set_weight, set_weight, net. cbn [set_params]. destruct (seq_set set_params (sub r ms) (data w)) as [l a]. reflexivity. Qed.
  Lemma cleans_set ms ks (r : range) w : cleans clean ms ks -> cleans clean (fst (sh_set_weight ms r w)) ks.
  Proof.
    intros C. rewrite set_slice. apply cleans_nth in C as [L C]. pose proof (sub_length r ms) as Q. pose proof (set_length (sub r ms) (data w)) as Q2.
    assert (D : cleans clean (fst (seq_set set_params (sub r ms) (data w))) (sub r ks)).
    { assert (E : cleans clean (sub r ms) (sub r ks)).
      { apply cleans_nth. split; [now rewrite !sub_length, L|]. intros p m k. rewrite !nth_sub. destruct (_ <? _); [|discriminate]. apply C. }
      pose proof (set_clean (Seq true (sub r ms)) (data w) (St [] None (sub r ks)) (conj eq_refl E)) as G. cbn [set_params] in G.
      destruct (seq_set set_params (sub r ms) (data w)). apply G. }
    apply cleans_nth in D as [Ld D]. apply cleans_nth. split; [rewrite paste_length; lia|]. intros p m k. rewrite nth_paste by lia.
    destruct (_ && _) eqn:G; [|apply C]. intros Em Ek. apply andb_true_iff in G as [G1 G2]. apply Nat.leb_le in G1. apply Nat.ltb_lt in G2.
    apply (D (p - fst r)); auto. rewrite nth_sub. destruct (Nat.ltb_spec (p - fst r) (snd r)); [|lia]. rewrite <- Ek. f_equal. lia.
  Qed.

  Definition ok W : Prop := sound (wd_ms W) (wd_rs W) (wd_sh W).
  Lemma start_ok ms : ok (start ms). Proof. apply fresh_sound. Qed.
  Lemma ev_ok W e : ok W -> ok (ev_step W e).
  Proof.
    intros O. destruct e as [r|q c|q w]; unfold ok; cbn [ev_step wd_ms wd_rs wd_sh].
    - destruct O as [L C]. split; auto. cbn [sh_fms]. rewrite !app_length. cbn. lia.
    - now apply step_sound.
    - destruct O as [L C]. split; auto. now apply cleans_set.
  Qed.
  Lemma run_ok es : forall W, ok W -> ok (ev_run W es).
  Proof. induction es as [|e es IH]; intros W O; auto. apply IH, ev_ok, O. Qed.

  Lemma nth_grow (rs : list range) r q : q < length rs -> nth q (rs ++ [r]) (0, 0) = nth q rs (0, 0).
  Proof. intros Hq. now apply app_nth1. Qed.

  (** *** setting weights, successfully or not, keeps the architecture *)
  Lemma take_inv (p t : T) v v' : take_param p v = Ok (t, v') -> shape t = shape p /\ wf t.
  Proof. unfold take_param. destruct (Nat.leb_spec (numel (shape p)) (length v)) as [L|L]; [|discriminate]. intros E. injection E as <- _. split; auto. now apply take_wf. Qed.
  Lemma leaf_arch_refl (l : leaf K) : leaf_arch l l. Proof. destruct l; cbn; auto. Qed.
  Lemma arch_refl : forall m : module K, arch m m.
  Proof.
    refine (module_ind2 (fun m => arch m m) (fun ms => archs ms ms) _ _ _ _ _ _); intros; try now constructor.
    constructor. apply leaf_arch_refl.
  Qed.
  Lemma leaf_set_arch (l : leaf K) v : leaf_sized l -> leaf_arch l (fst (leaf_set l v)) /\ leaf_sized (fst (leaf_set l v)).
  Proof.
    intros S0. destruct l as [W bias|cfg W bias| | | | | |]; try (split; [apply leaf_arch_refl|exact S0]); cbn [leaf_set].
    - destruct (take_param W v) as [[W' v']|e] eqn:E; [|split; [apply leaf_arch_refl|exact S0]]. apply take_inv in E as [Es Ew].
      destruct S0 as (c1 & c2 & SW & WW & B). destruct bias as [t|].
      + destruct B as [St Wt]. destruct (take_param t v') as [[t' v'']|e] eqn:E2.
        * apply take_inv in E2 as [Es2 Ew2]. cbn [fst]. split; [cbn; rewrite ?Es, ?Es2; auto|]. exists c1, c2. repeat split; try congruence; auto.
        * cbn [fst]. split; [cbn; rewrite ?Es; auto|]. exists c1, c2. repeat split; try congruence; auto.
      + cbn [fst]. split; [cbn; rewrite ?Es; auto|]. exists c1, c2. repeat split; try congruence; auto.
    - destruct (take_param W v) as [[W' v']|e] eqn:E; [|split; [apply leaf_arch_refl|exact S0]]. apply take_inv in E as [Es Ew].
      destruct S0 as (c1 & c2 & kh & kw & SW & WW & B). destruct bias as [t|].
      + destruct B as [St Wt]. destruct (take_param t v') as [[t' v'']|e] eqn:E2.
        * apply take_inv in E2 as [Es2 Ew2]. cbn [fst]. split; [cbn; rewrite ?Es, ?Es2; auto|]. exists c1, c2, kh, kw. repeat split; try congruence; auto.
        * cbn [fst]. split; [cbn; rewrite ?Es; auto|]. exists c1, c2, kh, kw. repeat split; try congruence; auto.
      + cbn [fst]. split; [cbn; rewrite ?Es; auto|]. exists c1, c2, kh, kw. repeat split; try congruence; auto.
  Qed.
  Lemma set_arch : forall (m : module K) v, sized m -> arch m (fst (set_params m v)) /\ sized (fst (set_params m v)).
  Proof.
    refine (module_ind2 (fun m => forall v, sized m -> arch m (fst (set_params m v)) /\ sized (fst (set_params m v)))
      (fun ms => forall v, sized_seq ms -> archs ms (fst (seq_set set_params ms v)) /\ sized_seq (fst (seq_set set_params ms v))) _ _ _ _ _ _); cbn [set_params seq_set].
    - intros l v S0. pose proof (leaf_set_arch l v S0) as [A B]. destruct (leaf_set l v) as [l' r]. split; [now constructor|exact B].
    - intros c v S0. split; [constructor|exact S0].
    - intros h ms IH v S0. cbn [sized] in S0. rewrite sized_go in S0. destruct (IH v S0) as [A B]. destruct (seq_set set_params ms v) as [l r].
      split; [now constructor|]. cbn [fst sized]. now rewrite sized_go.
    - intros F IH v S0. destruct (IH v S0) as [A B]. destruct (set_params F v) as [F' r]. split; [now constructor|exact B].
    - intros v _. split; [constructor|exact I].
    - intros m ms Hm IH v [S0 Ss]. destruct (Hm v S0) as [A B]. destruct (set_params m v) as [m' [v'|e]].
      + destruct (IH v' Ss) as [As Bs]. destruct (seq_set set_params ms v') as [l r]. split; [now constructor|now split].
      + split; [constructor; auto|now split]. pose proof (arch_refl (Seq true ms)) as R. now inversion R.
  Qed.
  Lemma archs_nth ms : forall ms', archs ms ms' <-> length ms' = length ms /\ forall p m m', nth_error ms p = Some m -> nth_error ms' p = Some m' -> arch m m'.
  Proof.
    induction ms as [|m ms IH]; intros [|m' ms'].
    - split; [|constructor]. split; auto. intros [|p]; discriminate.
    - split; [intros E; inversion E|intros [E _]; discriminate].
    - split; [intros E; inversion E|intros [E _]; discriminate].
    - split.
      + intros E. inversion E; subst. apply IH in H4 as [L R]. split; [cbn; lia|]. intros [|p] a a' E1 E2; [cbn in *; congruence|apply (R p); auto].
      + intros [L R]. constructor; [apply (R 0); auto|]. apply IH. split; [cbn in L; lia|]. intros p. apply (R (S p)).
  Qed.
  Lemma sized_nth ms : sized_seq ms <-> forall p m, nth_error ms p = Some m -> sized m.
  Proof.
    induction ms as [|m ms IH]; cbn [sized_seq].
    - split; auto. intros _ [|p]; discriminate.
    - rewrite IH. split; [intros [A B] [|p] a E; [cbn in E; congruence|now apply (B p)]|]. intros A. split; [now apply (A 0)|]. intros p. apply (A (S p)).
  Qed.
  Lemma set_slice_arch ms (r : range) w : sized_seq ms -> archs ms (fst (sh_set_weight ms r w)) /\ sized_seq (fst (sh_set_weight ms r w)).
  Proof.
    intros S0. rewrite set_slice. pose proof (sub_length r ms) as Q. pose proof (set_length (sub r ms) (data w)) as Q2.
    assert (Ss : sized_seq (sub r ms)).
    { apply sized_nth. intros p m. rewrite nth_sub. destruct (_ <? _); [|discriminate]. apply (proj1 (sized_nth ms) S0). }
    pose proof (set_arch (Seq true (sub r ms)) (data w)) as G. cbn [sized set_params] in G. rewrite sized_go in G. specialize (G Ss).
    destruct (seq_set set_params (sub r ms) (data w)) as [l a]. cbn [fst sized] in *. rewrite sized_go in G. destruct G as [A B]. inversion A as [| |h l1 l2 As|]; subst.
    apply archs_nth in As as [L As]. split.
    - apply archs_nth. split; [apply paste_length; lia|]. intros p m m' Em. rewrite nth_paste by lia. destruct (_ && _) eqn:G.
      + apply andb_true_iff in G as [G1 G2]. apply Nat.leb_le in G1. apply Nat.ltb_lt in G2. apply As. rewrite nth_sub.
        destruct (Nat.ltb_spec (p - fst r) (snd r)); [|lia]. rewrite <- Em. f_equal. lia.
      + rewrite Em. intros E. injection E as <-. apply arch_refl.
    - apply sized_nth. intros p m. rewrite nth_paste by lia. destruct (_ && _); [apply (proj1 (sized_nth l) B)|apply (proj1 (sized_nth ms) S0)].
  Qed.
  Lemma arch_sub ms ms' (r : range) s s' : archs ms ms' -> sized_seq ms' -> typed (net ms r) s s' -> typed (net ms' r) s s'.
  Proof.
    intros A B Ty. apply (proj1 arch_typed _ s s' Ty).
    - constructor. apply archs_nth in A as [L A]. apply archs_nth. split; [now rewrite !sub_length, L|]. intros p m m'. rewrite !nth_sub.
      destruct (_ <? _); [|discriminate]. apply A.
    - unfold net. cbn [sized]. rewrite sized_go. apply sized_nth. intros p m. rewrite nth_sub. destruct (_ <? _); [|discriminate]. apply (proj1 (sized_nth ms') B).
  Qed.
  Theorem prog_typed ms es (r : range) s s' : sized (Seq true ms) -> typed (net ms r) s s' -> typed (net (wd_ms (ev_run (start ms) es)) r) s s'.
  Proof.
    intros S0 Ty. assert (S1 : sized_seq ms) by (rewrite <- sized_go; exact S0). clear S0.
    assert (G : forall W, sized_seq (wd_ms W) -> typed (net (wd_ms W) r) s s' -> typed (net (wd_ms (ev_run W es)) r) s s').
    { clear. induction es as [|e es IH]; intros W S0 Ty; auto. apply IH; destruct e as [r'|q c|q w]; auto; cbn [ev_step wd_ms].
      - apply (set_slice_arch _ _ w S0).
      - destruct (set_slice_arch (wd_ms W) (nth q (wd_rs W) (0, 0)) w S0) as [A B]. now apply (arch_sub (wd_ms W)). }
    now apply G.
  Qed.

  Theorem prog_forward W q x : ev_answer W q (Forward x) = (y <- fwd (net (wd_ms W) (at_q W q)) x ;; Ok (VT y)).
  Proof. apply slice_forward. Qed.
  Theorem prog_none W q s s' b (x : T) c h : typed (net (wd_ms W) (at_q W q)) s s' -> 0 < b -> wf x -> shape x = b :: s ->
    point c = x -> wrt_of c <> Other -> ev_answer W q (pass_val None c) = answer (net (wd_ms W) (at_q W q)) h (pass_val None c).
  Proof. apply slice_none. Qed.

  Theorem prog_val ms hist q s s' b (x y : T) es c h : let W := ev_run (start ms) hist in
    q < length (wd_rs W) -> typed (net (wd_ms W) (at_q W q)) s s' -> 0 < b -> wf x -> shape x = b :: s ->
    fwd (net (wd_ms W) (at_q W q)) x = Ok y -> calm (wd_ms W) (wd_rs W) q x es -> point c = x -> wrt_of c <> Other ->
    ev_answer (ev_run (start ms) (hist ++ Use q (Forward x) :: es)) q (pass_val (Some y) c) = answer (net (wd_ms W) (at_q W q)) h (pass_val None c).
  Proof.
    intros W Hq Ty Hb Wx Sx Fy Hc Hp Hw. unfold ev_run. rewrite fold_left_app. change (fold_left _ hist _) with W. cbn [fold_left].
    assert (O : ok W) by apply run_ok, start_ok.
    assert (C : coh (net (wd_ms W) (at_q W q)) (view (wd_rs W) (wd_sh (ev_step W (Use q (Forward x)))) q) x).
    { cbn [ev_step wd_sh]. rewrite own_view by auto. cbn [perform fst]. now apply (typed_coh BF BPF _ s s' Ty b). }
    assert (E : forall V, ok V -> wd_ms V = wd_ms W -> q < length (wd_rs V) -> at_q V q = at_q W q -> calm (wd_ms V) (wd_rs V) q x es ->
      coh (net (wd_ms V) (at_q V q)) (view (wd_rs V) (wd_sh V) q) x ->
      ev_answer (fold_left ev_step es V) q (pass_val (Some y) c) = answer (net (wd_ms W) (at_q W q)) h (pass_val None c)).
    { clear C Hc. induction es as [|e es IH]; intros V OV Em HV Ea Hc C; cbn [fold_left].
      - unfold ev_answer, sh_answer. cbn [fst snd]. rewrite <- Em, <- Ea in *. symmetry. eapply call_val; eauto.
      - destruct e as [r|q' c'|q' w]; cbn [calm] in Hc; [| |contradiction].
        + assert (Eq : nth q (wd_rs V ++ [r]) (0, 0) = nth q (wd_rs V) (0, 0)) by now apply nth_grow.
          apply IH; auto; [now apply (ev_ok V (Make r))| | |].
          * cbn [ev_step wd_rs]. rewrite app_length. lia.
          * unfold at_q in *. cbn [ev_step wd_rs]. congruence.
          * unfold at_q, view in *. cbn [ev_step wd_rs wd_ms wd_sh sh_fms sh_kids]. rewrite Eq, app_nth1; [exact C|]. destruct OV as [L _]. now rewrite L.
        + destruct Hc as [Hq' Hc]. apply IH; auto; [now apply (ev_ok V (Use q' c'))|].
          cbn [ev_step wd_rs wd_ms wd_sh]. destruct (Nat.eqb_spec q' q) as [->|Ne].
          * rewrite own_view by auto. unfold at_q in *. cbn [wd_rs ev_step]. rewrite Em, Ea in *. now apply (perform_keeps _ s s' b).
          * unfold at_q in *. cbn [wd_rs ev_step]. now apply other_keeps. }
    apply (E (ev_step W (Use q (Forward x)))); auto. now apply ev_ok.
  Qed.

  Lemma at_nth W q r : nth_error (wd_rs W) q = Some r -> q < length (wd_rs W) /\ at_q W q = r.
  Proof. intros E. split; [apply nth_error_Some; congruence|]. unfold at_q. now apply nth_error_nth. Qed.
  Theorem prog_all ms es q r s s' b (x : T) c h : let W := ev_run (start ms) es in
    sized (Seq true ms) -> nth_error (wd_rs W) q = Some r -> typed (net ms r) s s' -> 0 < b -> wf x -> shape x = b :: s -> point c = x -> wrt_of c <> Other ->
    typed (net (wd_ms W) r) s s' /\ ev_answer W q (Forward x) = (y <- fwd (net (wd_ms W) r) x ;; Ok (VT y)) /\
    ev_answer W q (pass_val None c) = answer (net (wd_ms W) r) h (pass_val None c).
  Proof.
    intros W S0 E Ty Hb Wx Sx Hp Hw. destruct (at_nth W q r E) as [_ Ea]. pose proof (prog_typed ms es r s s' S0 Ty) as Ty'. fold W in Ty'.
    split; auto. rewrite <- Ea in *. split; [apply prog_forward|]. now apply (prog_none W q s s' b x).
  Qed.
  Theorem prog_val_all ms hist q r s s' b (x y : T) es c h : let W := ev_run (start ms) hist in
    sized (Seq true ms) -> nth_error (wd_rs W) q = Some r -> typed (net ms r) s s' -> 0 < b -> wf x -> shape x = b :: s ->
    fwd (net (wd_ms W) r) x = Ok y -> calm (wd_ms W) (wd_rs W) q x es -> point c = x -> wrt_of c <> Other ->
    ev_answer (ev_run (start ms) (hist ++ Use q (Forward x) :: es)) q (pass_val (Some y) c) = answer (net (wd_ms W) r) h (pass_val None c).
  Proof.
    intros W S0 E Ty Hb Wx Sx Fy Hc Hp Hw. destruct (at_nth W q r E) as [Hq Ea]. pose proof (prog_typed ms hist r s s' S0 Ty) as Ty'. fold W in Ty'.
    rewrite <- Ea in *. now apply (prog_val ms hist q s s' b x y es c h).
  Qed.
  Lemma prog_sized ms es : sized_seq ms -> sized_seq (wd_ms (ev_run (start ms) es)).
  Proof.
    intros S0. assert (G : forall W, sized_seq (wd_ms W) -> sized_seq (wd_ms (ev_run W es))); [|now apply G]. clear.
    induction es as [|e es IH]; intros W S0; auto. apply IH. destruct e as [r'|q c|q w]; auto. cbn [ev_step wd_ms]. apply (set_slice_arch _ _ w S0).
  Qed.
  Theorem prog_set ms es q r (w : T) : let W := ev_run (start ms) es in let W' := ev_run (start ms) (es ++ [SetWeight q w]) in
    sized (Seq true ms) -> nth_error (wd_rs W) q = Some r -> params (net (wd_ms W) r) <> [] -> shape w = [n_params (net (wd_ms W) r)] -> wf w ->
    wd_rs W' = wd_rs W /\ wd_sh W' = wd_sh W /\ get_weight (net (wd_ms W') r) = Ok w /\
    (forall r', fst r' + snd r' <= fst r \/ fst r + snd r <= fst r' -> net (wd_ms W') r' = net (wd_ms W) r') /\
    forall w0, get_weight (Seq true (wd_ms W)) = Ok w0 -> let a := n_params (Seq true (firstn (fst r) (wd_ms W))) in
      get_weight (Seq true (wd_ms W')) = Ok (mkT (shape w0) (firstn a (data w0) ++ data w ++ skipn (a + length (data w)) (data w0))).
  Proof.
    intros W W' S0 E P Sw Ww. destruct (at_nth W q r E) as [_ Ea]. unfold at_q in Ea.
    assert (S1 : sized (Seq true (wd_ms W))). { cbn [sized]. rewrite sized_go. apply prog_sized. rewrite <- sized_go. exact S0. }
    assert (EW : W' = ev_step W (SetWeight q w)) by (unfold W', W, ev_run; now rewrite fold_left_app).
    destruct (slice_weight (wd_ms W) r w S1 P Sw Ww) as (ms' & Es & A & B & C). rewrite EW. cbn [ev_step wd_rs wd_sh wd_ms]. rewrite Ea, Es. cbn [fst]. auto.
  Qed.
End Proofs.
