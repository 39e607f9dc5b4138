(** What method calls do to the hidden state, for every module tree, every input and every argument (also when they raise):
    the state keeps the shape of the module tree; reverse-mode products given val do not touch it; without val they run
    forward first. *)
From Coq Require Import String Ascii List Arith ZArith Lia Bool.
From Verif Require Import Scalar Sums Tensor Conv Abstract Simple LinearLayer ConvLayer PoolLayer Module Calls Jac LeafSpec TreeBase.
Import ListNotations.
Local Open Scope nat_scope.
Local Open Scope list_scope.

Section Frozen.
  Context {K} `{Num K}.
  Notation T := (tensor K).

  (** the state has the shape of the module tree *)
  Section Cleans.
    Variable c : module K -> st K -> Prop.
    Fixpoint cleans (ms : list (module K)) (ks : list (st K)) : Prop :=
      match ms, ks with
      | [], [] => True
      | m :: ms, k :: ks => c m k /\ cleans ms ks
      | _, _ => False
      end.
  End Cleans.
  Fixpoint clean (m : module K) (s : st K) : Prop :=
    match m with
    | Leaf _ => s = st0
    | MaxPool _ => st_fm s = [] /\ st_kids s = []
    | Seq _ ms => st_idx s = None /\ cleans clean ms (st_kids s)
    | Skip F => st_fm s = [] /\ st_idx s = None /\ st_kids s = [st_kid s] /\ clean F (st_kid s)
    end.
  Lemma init_clean : forall m, clean m (init m).
  Proof.
    refine (module_ind2 (fun m => clean m (init m)) (fun ms => cleans clean ms (map init ms)) _ _ _ _ _ _); cbn; auto.
  Qed.
  Lemma st_eta' (s : st K) : St (st_fm s) (st_idx s) (st_kids s) = s. Proof. now destruct s. Qed.
  Lemma clean_kid F (s : st K) : clean (Skip F) s -> set_kid s (st_kid s) = s.
  Proof. intros (A & B & C & _). unfold set_kid. rewrite <- C. apply st_eta'. Qed.
  Lemma clean_set_kid F (s k : st K) : clean (Skip F) s -> clean F k -> clean (Skip F) (set_kid s k).
  Proof. intros (A & B & C & _) D. cbn. auto. Qed.
  Lemma cleans_split m ms ks : cleans clean (m :: ms) ks -> exists k l, ks = k :: l /\ clean m k /\ cleans clean ms l.
  Proof. destruct ks; cbn; [tauto|]. intros [A B]. eauto. Qed.

  (** one case analysis at a time, innermost scrutinee first *)
  Ltac inner := match goal with |- context [match ?c with _ => _ end] =>
    lazymatch c with context [match _ with _ => _ end] => fail | _ => destruct c eqn:? end end.

  (** *** reverse mode with val given: the state is left alone *)
  Lemma vjp_frozen : forall (m : module K) s x y v w, clean m s -> fst (vjp m s x (Some y) v w) = s.
  Proof.
    refine (module_ind2 (fun m => forall s x y v w, clean m s -> fst (vjp m s x (Some y) v w) = s)
      (fun ms => forall h fm ks k v, cleans clean ms ks -> fst (seq_vjp_in vjp h fm ms ks k v) = ks /\ fst (seq_vjp_w vjp h fm ms ks k v) = ks) _ _ _ _ _ _).
    - reflexivity.
    - intros c s x y v w C. cbn [vjp ensure]. now destruct w.
    - intros h ms IH s x y v w [_ C]. cbn [vjp ensure]. destruct (wrt_ok w); auto. destruct (IH h (st_fm s) (st_kids s) 0 v C) as [A B].
      destruct w; [destruct seq_vjp_in|destruct seq_vjp_w|destruct seq_vjp_in]; cbn [fst] in *; subst; apply st_eta'.
    - intros F IH s x y v w C. cbn [vjp]. destruct (bind _ _) as [[[l t] vt]|] eqn:E; auto.
      destruct (numel0 x) as [n|]; [|discriminate]. cbn [bind val_tail some] in E. unfold some in E. destruct (slice_from n0 1 n y) as [t0|]; [|discriminate]. cbn [bind] in E.
      destruct (slice_from n0 1 n v) as [t1|]; [|discriminate]. cbn [bind] in E. injection E as <- <- <-.
      specialize (IH (st_kid s) x t0 t1 w ltac:(apply C)). destruct (vjp F (st_kid s) x (Some t0) t1 w). cbn [fst] in *. subst. now apply (clean_kid F).
    - intros h fm ks k v C. destruct ks; [|destruct C]. auto.
    - intros m ms IHm IHs h fm ks k v C. destruct (cleans_split _ _ _ C) as (k1 & l & -> & Cm & Cs). destruct (IHs h fm l (S k) v Cs) as [A B].
      split; cbn [seq_vjp_in seq_vjp_w kid_split].
      + destruct seq_vjp_in as [l1 r1]. cbn [fst] in A. subst l1. destruct (bind r1 _) as [[v1 [xx yy]]|]; auto.
        specialize (IHm k1 xx yy v1 Input Cm). destruct (vjp m k1 xx (Some yy) v1 Input). cbn [fst] in *. now subst.
      + destruct seq_vjp_w as [l1 r1]. cbn [fst] in B. subst l1. destruct (bind r1 _) as [[[vs v1] [xx yy]]|]; auto.
        pose proof (IHm k1 xx yy v1 Weight Cm) as I1. pose proof (IHm k1 xx yy v1 Input Cm) as I2.
        destruct (vjp m k1 xx (Some yy) v1 Weight) as [k2 [r2|]]; cbn [fst] in *; subst k2; auto. destruct (Nat.eqb k 0); auto.
        destruct (vjp m k1 xx (Some yy) v1 Input). cbn [fst] in *. now subst.
  Qed.
  Lemma mjp_frozen : forall (m : module K) s x y v w, clean m s -> fst (mjp m s x (Some y) v w) = s.
  Proof.
    refine (module_ind2 (fun m => forall s x y v w, clean m s -> fst (mjp m s x (Some y) v w) = s)
      (fun ms => forall h fm ks k v, cleans clean ms ks -> fst (seq_mjp_in mjp h fm ms ks k v) = ks /\ fst (seq_mjp_w mjp h fm ms ks k v) = ks) _ _ _ _ _ _).
    - reflexivity.
    - intros c s x y v w C. cbn [mjp]. unfold maxpool_jacobian. cbn [ensure]. now destruct v, w.
    - intros h ms IH s x y v w [_ C]. cbn [mjp ensure]. destruct (wrt_ok w); auto. destruct (bind (Ok y) _) as [mt|]; auto.
      destruct (IH h (st_fm s) (st_kids s) 0 (Some mt) C) as [A B].
      destruct w; [destruct seq_mjp_in|destruct seq_mjp_w|destruct seq_mjp_in]; cbn [fst] in *; subst; apply st_eta'.
    - intros F IH s x y v w C. cbn [mjp]. destruct v as [v|].
      + destruct (bind _ _) as [[[l t] vt]|] eqn:E; auto.
        destruct (numel0 x) as [n|]; [|discriminate]. cbn [bind val_tail some] in E. unfold some in E. destruct (slice_from n0 1 n y) as [t0|]; [|discriminate]. cbn [bind] in E.
        destruct (slice_from n0 2 n v) as [t1|]; [|discriminate]. cbn [bind] in E. injection E as <- <- <-.
        specialize (IH (st_kid s) x t0 (Some t1) w ltac:(apply C)). destruct (mjp F (st_kid s) x (Some t0) (Some t1) w). cbn [fst] in *. subst. now apply (clean_kid F).
      + unfold skip_jacobian. specialize (IH (st_kid s) x y None w ltac:(apply C)). destruct (mjp F (st_kid s) x (Some y) None w) as [k r]. cbn [fst] in IH. subst k.
        rewrite (clean_kid F s C). destruct (bind r _) as [[[jac b] l]|]; auto.
    - intros h fm ks k v C. destruct ks; [|destruct C]. auto.
    - intros m ms IHm IHs h fm ks k v C. destruct (cleans_split _ _ _ C) as (k1 & l & -> & Cm & Cs). destruct (IHs h fm l (S k) v Cs) as [A B].
      split; cbn [seq_mjp_in seq_mjp_w kid_split].
      + destruct seq_mjp_in as [l1 r1]. cbn [fst] in A. subst l1. destruct (bind r1 _) as [[v1 [xx yy]]|]; auto.
        specialize (IHm k1 xx yy v1 Input Cm). destruct (mjp m k1 xx (Some yy) v1 Input). cbn [fst] in *. now subst.
      + destruct seq_mjp_w as [l1 r1]. cbn [fst] in B. subst l1. destruct (bind r1 _) as [[[vs v1] [xx yy]]|]; auto.
        pose proof (IHm k1 xx yy v1 Weight Cm) as I1. pose proof (IHm k1 xx yy v1 Input Cm) as I2.
        destruct (mjp m k1 xx (Some yy) v1 Weight) as [k2 [r2|]]; cbn [fst] in *; subst k2; auto. destruct (Nat.eqb k 0); auto.
        destruct (mjp m k1 xx (Some yy) v1 Input). cbn [fst] in *. now subst.
  Qed.
  Lemma jacobian_frozen (m : module K) s x y w : clean m s -> fst (jacobian m s x (Some y) w) = s.
  Proof. intros C. pose proof (mjp_frozen m s x y None w C) as E. destruct m; auto. Qed.
  Lemma jTmjp_frozen : forall (m : module K) s x y v w fd td db, clean m s -> fst (jTmjp m s x (Some y) v w fd td db) = s.
  Proof.
    refine (module_ind2 (fun m => forall s x y v w fd td db, clean m s -> fst (jTmjp m s x (Some y) v w fd td db) = s)
      (fun ms => forall h fm ks k v fd td db, cleans clean ms ks ->
         fst (seq_jTmjp_in jTmjp h fm ms ks k v fd td db) = ks /\ fst (seq_jTmjp_w jTmjp h fm ms ks k v fd td db) = ks) _ _ _ _ _ _).
    - reflexivity.
    - intros c s x y v w fd td db C. reflexivity.
    - intros h ms IH s x y v w fd td db [_ C]. cbn [jTmjp ensure]. destruct (db_ok fd td db); auto. destruct (bind (Ok y) _) as [[mt fd1]|]; auto.
      destruct (IH h (st_fm s) (st_kids s) 0 mt fd1 td db C) as [A B].
      destruct w; [destruct seq_jTmjp_in|destruct seq_jTmjp_w|destruct seq_jTmjp_in]; cbn [fst] in *; subst; apply st_eta'.
    - intros F IH s x y v w fd td db C. cbn [jTmjp ensure]. destruct (db_ok fd td db); auto.
      destruct (bind (Ok y) _) as [[[[[mt fd1] l] t] sub]|]; auto.
      assert (Ck : clean F (st_kid s)) by apply C. pose proof (fun v => mjp_frozen F (st_kid s) x t v w Ck) as Q1.
      specialize (IH (st_kid s) x t (VT sub) w fd1 td db Ck). destruct (jTmjp F (st_kid s) x (Some t) _ w fd1 td db) as [k r]. cbn [fst] in IH. subst k.
      rewrite (clean_kid F s C). destruct r as [j|]; auto. destruct w; auto. destruct fd1; auto. destruct (bind (slice n0 1 0 l mt) _) as [m12|]; auto.
      pose proof (Q1 (Some m12)) as E1. destruct (mjp F (st_kid s) x (Some t) (Some m12) Input) as [k r]. cbn [fst] in E1. subst k. rewrite (clean_kid F s C).
      destruct (bind r _) as [[mj m21]|]; auto.
      pose proof (Q1 (Some m21)) as E1. destruct (mjp F (st_kid s) x (Some t) (Some m21) Input) as [k r1]. cbn [fst] in E1. subst k. rewrite (clean_kid F s C). reflexivity.
    - intros h fm ks k v fd td db C. destruct ks; [|destruct C]. auto.
    - intros m ms IHm IHs h fm ks k v fd td db C. destruct (cleans_split _ _ _ C) as (k1 & l & -> & Cm & Cs). destruct (IHs h fm l (S k) v fd td db Cs) as [A B].
      split; cbn [seq_jTmjp_in seq_jTmjp_w kid_split].
      + destruct seq_jTmjp_in as [l1 r1]. cbn [fst] in A. subst l1. destruct (bind r1 _) as [[v1 [xx yy]]|]; auto.
        set (a := match ms with [] => fd | _ => db end). set (c := if Nat.eqb k 0 then td else db).
        specialize (IHm k1 xx yy v1 Input a c db Cm). destruct (jTmjp m k1 xx (Some yy) v1 Input a c db). cbn [fst] in *. now subst.
      + destruct seq_jTmjp_w as [l1 r1]. cbn [fst] in B. subst l1. destruct (bind r1 _) as [[[vs v1] [xx yy]]|]; auto. cbv zeta.
        set (a := match ms with [] => fd | _ => db end).
        pose proof (IHm k1 xx yy v1 Weight a td db Cm) as I1. pose proof (IHm k1 xx yy v1 Input a db db Cm) as I2.
        destruct (jTmjp m k1 xx (Some yy) v1 Weight a td db) as [k2 [r2|]]; cbn [fst] in *; subst k2; auto. destruct (Nat.eqb k 0); auto.
        destruct (jTmjp m k1 xx (Some yy) v1 Input a db db). cbn [fst] in *. now subst.
  Qed.

  (** *** forward *)
  Lemma forward_clean : forall (m : module K) s x, clean m s -> clean m (fst (forward m s x)).
  Proof.
    refine (module_ind2 (fun m => forall s x, clean m s -> clean m (fst (forward m s x)))
      (fun ms => forall h ks x fm, cleans clean ms ks -> cleans clean ms (fst (fst (seq_forward forward h ms ks x fm)))) _ _ _ _ _ _).
    - auto.
    - intros c s x C. cbn [forward]. destruct (max_pool2d c x) as [[v i]|]; auto.
    - intros h ms IH s x [A B]. cbn [forward]. specialize (IH h (st_kids s) x (if h then [x] else st_fm s) B).
      destruct seq_forward as [[ks fm] r]. split; auto.
    - intros F IH s x C. cbn [forward]. specialize (IH (st_kid s) x ltac:(apply C)). destruct (forward F (st_kid s) x). now apply clean_set_kid.
    - intros h ks x fm C. destruct ks; [exact I|destruct C].
    - intros m ms IHm IHs h ks x fm C. destruct (cleans_split _ _ _ C) as (k1 & l & -> & Cm & Cs). cbn [seq_forward kid_split].
      specialize (IHm k1 x Cm). destruct (forward m k1 x) as [k2 [y|]]; cbn [fst] in *; [|split; auto].
      specialize (IHs h l y (hook_push h fm y) Cs). destruct seq_forward as [[ks fm1] r]. split; auto.
  Qed.
  Inductive forwards (m : module K) (h : st K) : st K -> Prop :=
  | fw0 : forwards m h h
  | fw1 h' x : forwards m h h' -> forwards m h (fst (forward m h' x)).
  Lemma forwards_clean m h h' : forwards m h h' -> clean m h -> clean m h'.
  Proof. induction 1; auto. intros C. now apply forward_clean, IHforwards. Qed.
  Lemma forwards_kid F s k k' : forwards F k k' -> forwards (Skip F) (set_kid s k) (set_kid s k').
  Proof.
    induction 1 as [|k1 x R IH]; [constructor|]. replace (set_kid s (fst (forward F k1 x))) with (fst (forward (Skip F) (set_kid s k1) x)).
    - now constructor.
    - cbn [forward]. change (st_kid (set_kid s k1)) with k1. now destruct (forward F k1 x).
  Qed.
  Lemma forwards_one m h x : forwards m h (fst (forward m h x)). Proof. constructor. constructor. Qed.
  Lemma forwards_kid' F s k' : clean (Skip F) s -> forwards F (st_kid s) k' -> forwards (Skip F) s (set_kid s k').
  Proof. intros C R. apply (forwards_kid F s) in R. now rewrite (clean_kid F s C) in R. Qed.

  (** reverse-mode products only run forward *)
  Lemma vjp_forwards : forall (m : module K) s x val v w, clean m s -> forwards m s (fst (vjp m s x val v w)).
  Proof.
    refine (module_ind2 (fun m => forall s x val v w, clean m s -> forwards m s (fst (vjp m s x val v w))) (fun _ => True) _ _ _ _ I (fun _ _ _ _ => I)).
    - constructor.
    - intros c s x [y|] v w C; [rewrite vjp_frozen; auto; constructor|]. cbn [vjp ensure]. destruct w; try constructor.
      pose proof (forwards_one (MaxPool c) s x). destruct (forward (MaxPool c) s x). assumption.
    - intros h ms _ s x [y|] v w C; [rewrite vjp_frozen; auto; constructor|].
      pose proof (forwards_one (Seq h ms) s x) as R. pose proof (forward_clean _ s x C) as C1.
      cbn [vjp ensure]. destruct (wrt_ok w) eqn:Ew; [|constructor]. destruct (forward (Seq h ms) s x) as [s1 [y|]]; cbn [fst] in *; auto.
      pose proof (vjp_frozen (Seq h ms) s1 x y v w C1) as E. cbn [vjp ensure] in E. rewrite Ew in E. cbn [bind] in E. rewrite E. exact R.
    - intros F IH s x [y|] v w C; [rewrite vjp_frozen; auto; constructor|]. cbn [vjp val_tail].
      destruct (bind _ _) as [[[l t] vt]|]; [|constructor]. specialize (IH (st_kid s) x t vt w ltac:(apply C)).
      destruct (vjp F (st_kid s) x t vt w). now apply forwards_kid'.
  Qed.
  Lemma mjp_forwards : forall (m : module K) s x val v w, clean m s -> forwards m s (fst (mjp m s x val v w)).
  Proof.
    refine (module_ind2 (fun m => forall s x val v w, clean m s -> forwards m s (fst (mjp m s x val v w))) (fun _ => True) _ _ _ _ I (fun _ _ _ _ => I)).
    - constructor.
    - intros c s x [y|] v w C; [rewrite mjp_frozen; auto; constructor|].
      pose proof (forwards_one (MaxPool c) s x). cbn [mjp]. unfold maxpool_jacobian. cbn [ensure]. destruct v, w; try constructor; destruct (forward (MaxPool c) s x); assumption.
    - intros h ms _ s x [y|] v w C; [rewrite mjp_frozen; auto; constructor|].
      pose proof (forwards_one (Seq h ms) s x) as R. pose proof (forward_clean _ s x C) as C1.
      cbn [mjp ensure]. destruct (wrt_ok w) eqn:Ew; [|constructor]. destruct (forward (Seq h ms) s x) as [s1 [y|]]; cbn [fst] in *; auto.
      pose proof (mjp_frozen (Seq h ms) s1 x y v w C1) as E. cbn [mjp ensure] in E. rewrite Ew in E. rewrite E. exact R.
    - intros F IH s x [y|] v w C; [rewrite mjp_frozen; auto; constructor|]. cbn [mjp val_tail]. destruct v as [v|].
      + destruct (bind _ _) as [[[l t] vt]|]; [|constructor]. specialize (IH (st_kid s) x t (Some vt) w ltac:(apply C)).
        destruct (mjp F (st_kid s) x t (Some vt) w). now apply forwards_kid'.
      + unfold skip_jacobian. specialize (IH (st_kid s) x None None w ltac:(apply C)). destruct (mjp F (st_kid s) x None None w) as [k r]. cbn [fst] in IH.
        pose proof (forwards_kid' F s k C IH) as R. destruct (bind r _) as [[[jac b] l]|]; auto. cbn [ensure].
        pose proof (fw1 _ _ _ x R) as R2. destruct (forward (Skip F) (set_kid s k) x). exact R2.
  Qed.
  Lemma jacobian_forwards (m : module K) s x val w : clean m s -> forwards m s (fst (jacobian m s x val w)).
  Proof. intros C. pose proof (mjp_forwards m s x val None w C) as E. destruct m; auto. Qed.
  Lemma jTmjp_forwards (m : module K) s x val v w fd td db : clean m s -> forwards m s (fst (jTmjp m s x val v w fd td db)).
  Proof.
    intros C. destruct val as [y|]; [rewrite jTmjp_frozen; auto; constructor|]. destruct m as [l|c|h ms|F]; [constructor| | |].
    - pose proof (forwards_one (MaxPool c) s x). cbn [jTmjp ensure]. destruct (forward (MaxPool c) s x). assumption.
    - pose proof (forwards_one (Seq h ms) s x) as R. pose proof (forward_clean _ s x C) as C1.
      pose proof (fun s1 y => jTmjp_frozen (Seq h ms) s1 x y v w fd td db) as E. cbn [jTmjp ensure] in *. destruct (db_ok fd td db); [|constructor].
      destruct (forward (Seq h ms) s x) as [s1 [y|]]; cbn [fst] in *; auto. specialize (E s1 y C1). rewrite E. exact R.
    - pose proof (forwards_one (Skip F) s x) as R. pose proof (forward_clean _ s x C) as C1.
      pose proof (fun s1 y => jTmjp_frozen (Skip F) s1 x y v w fd td db) as E. cbn [jTmjp ensure] in *. destruct (db_ok fd td db); [|constructor].
      destruct (forward (Skip F) s x) as [s1 [y|]]; cbn [fst] in *; auto. specialize (E s1 y C1). rewrite E. exact R.
  Qed.

  (** *** the forward-mode products keep the shape of the state *)
  Lemma jvp_clean : forall (m : module K) s x val v w, clean m s -> clean m (fst (jvp m s x val v w)).
  Proof.
    refine (module_ind2 (fun m => forall s x val v w, clean m s -> clean m (fst (jvp m s x val v w)))
      (fun ms => forall h ks x fm v, cleans clean ms ks -> cleans clean ms (fst (fst (seq_jvp_in jvp h ms ks x fm v))) /\
         forall p acc, cleans clean ms (fst (fst (seq_jvp_w jvp h ms ks x fm v p acc)))) _ _ _ _ _ _).
    - auto.
    - auto.
    - intros h ms IH s x val v w [A B]. cbn [jvp]. destruct (IH h (st_kids s) x (st_fm s) v B) as [I1 I2]. specialize (I2 0 None).
      destruct w; [destruct seq_jvp_in as [[? ?] ?]|destruct seq_jvp_w as [[? ?] ?]|]; split; auto.
    - intros F IH s x val v w C. cbn [jvp]. destruct (bind _ _) as [[[b l] t]|]; auto.
      specialize (IH (st_kid s) x t v w ltac:(apply C)). destruct (jvp F (st_kid s) x t v w). now apply clean_set_kid.
    - intros h ks x fm v C. destruct ks; [split; intros; exact I|destruct C].
    - intros m ms IHm IHs h ks x fm v C. destruct (cleans_split _ _ _ C) as (k1 & l & -> & Cm & Cs). pose proof (forward_clean m k1 x Cm) as C1.
      split; [|intros p acc]; cbn [seq_jvp_in seq_jvp_w kid_split]; destruct (forward m k1 x) as [k2 [y|]]; cbn [fst] in *; try (split; auto; fail).
      + specialize (IHm k2 x (Some y) v Input C1). destruct (jvp m k2 x (Some y) v Input) as [k3 r3]. cbn [fst] in IHm.
        destruct (bind r3 _) as [v1|]; [|split; auto]. destruct (IHs h l y (hook_push h fm y) v1 Cs) as [I1 _]. destruct seq_jvp_in as [[? ?] ?]. split; auto.
      + set (call := match acc with None => (k2, Ok None) | Some a => jvp m k2 x (Some y) a Input end).
        assert (C2 : clean m (fst call)) by (unfold call; destruct acc; auto). destruct call as [k3 r3]. cbn [fst] in C2.
        destruct (bind r3 _) as [[acc1 vp]|]; [|split; auto]. specialize (IHm k3 x (Some y) vp Weight C2). destruct (jvp m k3 x (Some y) vp Weight) as [k4 r4]. cbn [fst] in IHm.
        destruct (bind r4 _) as [acc2|]; [|split; auto]. destruct (IHs h l y (hook_push h fm y) v Cs) as [_ I2]. specialize (I2 (p + n_params m) acc2).
        destruct seq_jvp_w as [[? ?] ?]. split; auto.
  Qed.
  Lemma jmp_clean : forall (m : module K) s x val v w, clean m s -> clean m (fst (jmp m s x val v w)).
  Proof.
    refine (module_ind2 (fun m => forall s x val v w, clean m s -> clean m (fst (jmp m s x val v w)))
      (fun ms => forall h ks x fm, cleans clean ms ks -> (forall v, cleans clean ms (fst (fst (seq_jmp_in jmp h ms ks x fm v)))) /\
         forall v p acc, cleans clean ms (fst (fst (seq_jmp_w jmp h ms ks x fm v p acc)))) _ _ _ _ _ _).
    - auto.
    - intros c s x val v w C. pose proof (forwards_clean _ _ _ (mjp_forwards (MaxPool c) s x val v w C) C) as R. cbn [jmp mjp] in *.
      destruct v; [|exact R]. destruct w; auto. destruct (ensure _ s x val). exact R.
    - intros h ms IH s x val v w C. cbn [jmp]. destruct (wrt_ok w); auto. destruct v as [v|].
      2:{ eapply forwards_clean; [apply jacobian_forwards; exact C|exact C]. }
      destruct C as [A B]. destruct (IH h (st_kids s) x (st_fm s) B) as [I1 I2]. specialize (I1 (Some v)). specialize (I2 v 0 None).
      destruct w; [destruct seq_jmp_in as [[? ?] ?]|destruct seq_jmp_w as [[? ?] ?]|destruct seq_jmp_in as [[? ?] ?]]; split; auto.
    - intros F IH s x val v w C. cbn [jmp]. destruct v as [v|].
      2:{ eapply forwards_clean; [apply jacobian_forwards; exact C|exact C]. }
      destruct (bind _ _) as [[[b l] t]|]; auto. specialize (IH (st_kid s) x t (Some v) w ltac:(apply C)). destruct (jmp F (st_kid s) x t (Some v) w). now apply clean_set_kid.
    - intros h ks x fm C. destruct ks; [split; intros; exact I|destruct C].
    - intros m ms IHm IHs h ks x fm C. destruct (cleans_split _ _ _ C) as (k1 & l & -> & Cm & Cs). pose proof (forward_clean m k1 x Cm) as C1.
      split; [intros v|intros v p acc]; cbn [seq_jmp_in seq_jmp_w kid_split]; destruct (forward m k1 x) as [k2 [y|]]; cbn [fst] in *; try (split; auto; fail).
      + specialize (IHm k2 x (Some y) v Input C1). destruct (jmp m k2 x (Some y) v Input) as [k3 r3]. cbn [fst] in IHm.
        destruct r3 as [v1|]; [|split; auto]. destruct (IHs h l y (hook_push h fm y) Cs) as [I1 _]. specialize (I1 v1). destruct seq_jmp_in as [[? ?] ?]. split; auto.
      + set (call := match acc with None => (k2, Ok None) | Some a => jmp m k2 x (Some y) (Some a) Input end).
        assert (C2 : clean m (fst call)) by (unfold call; destruct acc; auto). destruct call as [k3 r3]. cbn [fst] in C2.
        destruct (bind r3 _) as [[acc1 vp]|]; [|split; auto]. specialize (IHm k3 x (Some y) (Some vp) Weight C2). destruct (jmp m k3 x (Some y) (Some vp) Weight) as [k4 r4]. cbn [fst] in IHm.
        destruct (bind r4 _) as [acc2|]; [|split; auto]. destruct (IHs h l y (hook_push h fm y) Cs) as [_ I2]. specialize (I2 v (p + n_params m) acc2).
        destruct seq_jmp_w as [[? ?] ?]. split; auto.
  Qed.
  Lemma ensure_clean (m : module K) s x val : clean m s -> clean m (fst (ensure m s x val)).
  Proof. intros C. destruct val; auto. now apply forward_clean. Qed.
  Lemma jmjTp_clean : forall (m : module K) s x val v w fd td db, clean m s -> clean m (fst (jmjTp m s x val v w fd td db)).
  Proof.
    refine (module_ind2 (fun m => forall s x val v w fd td db, clean m s -> clean m (fst (jmjTp m s x val v w fd td db)))
      (fun ms => forall h fm ks k fd td db, cleans clean ms ks -> (forall v, cleans clean ms (fst (seq_jmjTp_in jmjTp h fm ms ks k v fd td db))) /\
         forall bs acc, cleans clean ms (fst (seq_jmjTp_w jmjTp h fm ms ks k bs acc fd td db))) _ _ _ _ _ _).
    - auto.
    - intros c s x val v w fd td db C. pose proof (ensure_clean _ s x val C). cbn [jmjTp]. destruct (ensure _ s x val). assumption.
    - intros h ms IH s x val v w fd td db C. pose proof (ensure_clean _ s x val C) as C1. cbn [jmjTp]. destruct (db_ok fd td db); auto.
      destruct (ensure _ s x val) as [s1 [y|]]; auto. cbn [fst] in C1. destruct w; auto.
      + destruct (match v with VNone => _ | _ => _ end) as [mt fd1]. destruct C1 as [A B]. destruct (IH h (st_fm s1) (st_kids s1) 0 fd1 td db B) as [I1 _]. specialize (I1 mt).
        destruct seq_jmjTp_in. split; auto.
      + destruct (bind _ _) as [[bs fd1]|]; auto. destruct C1 as [A B]. destruct (IH h (st_fm s1) (st_kids s1) 0 fd1 td db B) as [_ I2]. specialize (I2 bs VNone).
        destruct seq_jmjTp_w. split; auto.
    - intros F IH s x val v w fd td db C. pose proof (ensure_clean _ s x val C) as C1. cbn [jmjTp]. destruct (db_ok fd td db); auto.
      destruct (ensure _ s x val) as [s1 r1]. cbn [fst] in C1. destruct (bind r1 _) as [[[[b0 l1] l2] t]|]; auto.
      specialize (IH (st_kid s1) x (Some t) v w fd td db ltac:(apply C1)). destruct (jmjTp F _ x _ v w fd td db) as [k r2]. cbn [fst] in IH.
      pose proof (clean_set_kid F s1 k C1 IH) as C2. destruct r2 as [j|]; auto. destruct w; auto. destruct td; auto.
      destruct (bind (to_tensor v) _) as [mt|]; auto. change (st_kid (set_kid s1 k)) with k.
      pose proof (jmp_clean F k x (Some t) (Some mt) Input IH) as Ck. destruct (jmp F k x (Some t) (Some mt) Input) as [k3 r3]. cbn [fst] in Ck.
      pose proof (clean_set_kid F _ k3 C2 Ck) as C3. destruct (bind r3 _) as [jm|]; auto. destruct fd; auto. destruct (transpose12 n0 mt) as [mtT|]; auto.
      change (st_kid (set_kid (set_kid s1 k) k3)) with k3.
      pose proof (jmp_clean F k3 x (Some t) (Some mtT) Input Ck) as Ck4. destruct (jmp F k3 x (Some t) (Some mtT) Input) as [k4 r4]. cbn [fst] in Ck4.
      exact (clean_set_kid F _ k4 C3 Ck4).
    - intros h fm ks k fd td db C. destruct ks; [split; intros; exact I|destruct C].
    - intros m ms IHm IHs h fm ks k fd td db C. destruct (cleans_split _ _ _ C) as (k1 & l & -> & Cm & Cs). destruct (IHs h fm l (S k) fd td db Cs) as [Ia Ib].
      split; [intros v|intros bs acc]; cbn [seq_jmjTp_in seq_jmjTp_w kid_split].
      + destruct (fmap2 h fm k) as [[xx yy]|]; [|split; auto]. set (a := if Nat.eqb k 0 then fd else db). set (c := match ms with [] => td | _ => db end).
        specialize (IHm k1 xx (Some yy) v Input a c db Cm). destruct (jmjTp m k1 xx (Some yy) v Input a c db) as [k2 [v1|]]; cbn [fst] in *; [|split; auto].
        specialize (Ia v1). destruct seq_jmjTp_in. split; auto.
      + cbv zeta. set (c := match ms with [] => td | _ => db end).
        match goal with |- context [match ?q with (s, r) => match r with _ => _ end end] => set (call1 := q) end.
        assert (C2 : clean m (fst call1)). { unfold call1. destruct acc; auto; destruct (fmap2 h fm k) as [[xx yy]|]; auto. }
        destruct call1 as [k2 [acc1|]]; cbn [fst] in *; [|split; auto]. destruct (Nat.eqb (n_params m) 0).
        * specialize (Ib bs acc1). destruct seq_jmjTp_w. split; auto.
        * destruct (bind _ _) as [[[[xx yy] b1] bs1]|]; [|split; auto].
          specialize (IHm k2 xx (Some yy) b1 Weight fd c db C2). destruct (jmjTp m k2 xx (Some yy) b1 Weight fd c db) as [k3 r3]. cbn [fst] in IHm.
          destruct (bind r3 _) as [acc2|]; [|split; auto]. specialize (Ib bs1 (of_opt acc2)). destruct seq_jmjTp_w. split; auto.
  Qed.

  (** *** histories *)
  Lemma perform_clean (m : module K) s c : clean m s -> clean m (fst (perform m s c)).
  Proof.
    intros C. destruct c; cbn [perform opt_result fst].
    - now apply forward_clean.
    - eapply forwards_clean; [apply jacobian_forwards; exact C|exact C].
    - now apply jvp_clean.
    - now apply jmp_clean.
    - now apply jmjTp_clean.
    - eapply forwards_clean; [apply vjp_forwards; exact C|exact C].
    - eapply forwards_clean; [apply mjp_forwards; exact C|exact C].
    - eapply forwards_clean; [apply jTmjp_forwards; exact C|exact C].
  Qed.
  Lemma run_clean (m : module K) cs : clean m (run m (init m) cs).
  Proof.
    unfold run. generalize (init_clean m). generalize (init m). induction cs as [|c cs IH]; intros s C; auto. cbn [fold_left]. apply IH. now apply perform_clean.
  Qed.
  Lemma perform_frozen (m : module K) s c : clean m s -> backward c = true -> given_val c <> None -> fst (perform m s c) = s.
  Proof.
    intros C B G. destruct c; try discriminate; cbn [given_val] in G; destruct val as [y|]; try congruence; cbn [perform opt_result fst].
    - now apply jacobian_frozen.
    - now apply vjp_frozen.
    - now apply mjp_frozen.
    - now apply jTmjp_frozen.
  Qed.
  Lemma run_frozen (m : module K) hist c : backward c = true -> given_val c <> None -> fst (perform m (run m (init m) hist) c) = run m (init m) hist.
  Proof. apply perform_frozen, run_clean. Qed.

  (** *** the size of the state *)
  (** tensors kept by a state *)
  Fixpoint stored (s : st K) : nat :=
    match s with
    | St fm i ks => length fm + (match i with Some _ => 1 | None => 0 end) + (fix go l := match l with [] => 0 | k :: l => stored k + go l end) ks
    end.
  Definition storeds (ks : list (st K)) : nat := fold_right (fun k n => stored k + n) 0 ks.
  Lemma stored_eq fm i ks : stored (St fm i ks) = length fm + (match i with Some _ => 1 | None => 0 end) + storeds ks.
  Proof. reflexivity. Qed.
  (** one tensor per pooling layer; the input and every intermediate result per Sequential *)
  Fixpoint slots (m : module K) : nat :=
    match m with
    | Leaf _ => 0
    | MaxPool _ => 1
    | Seq _ ms => 1 + length ms + fold_right (fun m n => slots m + n) 0 ms
    | Skip F => slots F
    end.
  Definition slotss (ms : list (module K)) : nat := fold_right (fun m n => slots m + n) 0 ms.

  Fixpoint bounded (m : module K) (s : st K) : Prop :=
    match m with
    | Leaf _ => s = st0
    | MaxPool _ => st_fm s = [] /\ st_kids s = []
    | Seq _ ms => st_idx s = None /\ length (st_fm s) <= S (length ms) /\ cleans bounded ms (st_kids s)
    | Skip F => st_fm s = [] /\ st_idx s = None /\ st_kids s = [st_kid s] /\ bounded F (st_kid s)
    end.
  Lemma init_bounded : forall m, bounded m (init m).
  Proof.
    refine (module_ind2 (fun m => bounded m (init m)) (fun ms => cleans bounded ms (map init ms)) _ _ _ _ _ _); cbn; auto with arith.
  Qed.
  Lemma bounded_stored : forall m s, bounded m s -> stored s <= slots m.
  Proof.
    refine (module_ind2 (fun m => forall s, bounded m s -> stored s <= slots m) (fun ms => forall ks, cleans bounded ms ks -> storeds ks <= slotss ms) _ _ _ _ _ _).
    - intros l s ->. cbn. lia.
    - intros c [fm i ks] [A B]. cbn in A, B. subst. rewrite stored_eq. cbn. destruct i; lia.
    - intros h ms IH [fm i ks] (A & B & C). cbn [st_idx st_fm st_kids] in *. subst. rewrite stored_eq. cbn [slots]. specialize (IH ks C). unfold slotss in IH. lia.
    - intros F IH [fm i ks] (A & B & C & D). cbn [st_idx st_fm st_kids] in *. subst fm i. rewrite stored_eq. rewrite C. cbn [length storeds fold_right slots]. specialize (IH _ D). lia.
    - intros [|]; cbn; [lia|tauto].
    - intros m ms Im Is [|k ks]; cbn [cleans]; [tauto|]. intros [A B]. specialize (Im k A). specialize (Is ks B). cbn [storeds slotss fold_right] in *. unfold storeds, slotss in *. lia.
  Qed.
  Lemma bounded_clean : forall m s, bounded m s -> clean m s.
  Proof.
    refine (module_ind2 (fun m => forall s, bounded m s -> clean m s) (fun ms => forall ks, cleans bounded ms ks -> cleans clean ms ks) _ _ _ _ _ _); cbn [bounded clean]; auto.
    - intros h ms IH s (A & B & C). auto.
    - intros F IH s (A & B & C & D). auto.
    - intros m ms Im Is [|k ks]; cbn; auto. intros [A B]. auto.
  Qed.
  Lemma forward_bounded : forall (m : module K) s x, bounded m s -> bounded m (fst (forward m s x)).
  Proof.
    refine (module_ind2 (fun m => forall s x, bounded m s -> bounded m (fst (forward m s x)))
      (fun ms => forall h ks x fm, cleans bounded ms ks -> cleans bounded ms (fst (fst (seq_forward forward h ms ks x fm))) /\
         length (snd (fst (seq_forward forward h ms ks x fm))) <= length fm + (if h then length ms else 0)) _ _ _ _ _ _).
    - auto.
    - intros c s x C. cbn [forward]. destruct (max_pool2d c x) as [[v i]|]; auto.
    - intros h ms IH s x (A & B & C). cbn [forward]. specialize (IH h (st_kids s) x (if h then [x] else st_fm s) C).
      destruct seq_forward as [[ks fm] r]. cbn [fst snd] in IH. destruct IH as [I1 I2]. split; auto. cbn [st_fm st_kids fst]. split; auto. destruct h; cbn in I2; lia.
    - intros F IH s x (A & B & C & D). cbn [forward]. specialize (IH (st_kid s) x D). destruct (forward F (st_kid s) x). cbn. auto.
    - intros h ks x fm C. destruct ks; [split; [exact I|cbn; lia]|destruct C].
    - intros m ms IHm IHs h ks x fm C. destruct ks as [|k1 l]; [destruct C|]. destruct C as [Cm Cs]. cbn [seq_forward kid_split].
      specialize (IHm k1 x Cm). destruct (forward m k1 x) as [k2 [y|]]; cbn [fst snd] in *; [|split; [split; auto|lia]].
      specialize (IHs h l y (hook_push h fm y) Cs). destruct seq_forward as [[ks fm1] r]. cbn [fst snd] in *. destruct IHs as [I1 I2]. split; [split; auto|].
      unfold hook_push in I2. destruct h; cbn [length] in *; [rewrite app_length in I2; cbn [length] in I2|]; lia.
  Qed.
  Lemma forwards_bounded m h h' : forwards m h h' -> bounded m h -> bounded m h'.
  Proof. induction 1; auto. intros C. now apply forward_bounded, IHforwards. Qed.
  Definition forward_or_backward (c : call K) : bool := match c with Forward _ => true | c => backward c end.
  Lemma perform_bounded (m : module K) s c : bounded m s -> forward_or_backward c = true -> bounded m (fst (perform m s c)).
  Proof.
    intros B E. pose proof (bounded_clean m s B) as C. destruct c; try discriminate; cbn [perform opt_result fst]; eapply forwards_bounded; try exact B.
    - apply forwards_one.
    - now apply jacobian_forwards.
    - now apply vjp_forwards.
    - now apply mjp_forwards.
    - now apply jTmjp_forwards.
  Qed.
  Lemma run_stored (m : module K) cs : Forall (fun c => forward_or_backward c = true) cs -> stored (run m (init m) cs) <= slots m.
  Proof.
    intros Hc. apply bounded_stored. unfold run. revert Hc. generalize (init_bounded m). generalize (init m).
    induction cs as [|c cs IH]; intros s B Hc; auto. cbn [fold_left]. inversion Hc; subst. apply IH; auto. now apply perform_bounded.
  Qed.
End Frozen.
