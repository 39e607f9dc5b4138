(** Lemmas on the object model: what forward leaves in the heap. *)
From Coq Require Import String Ascii List Arith ZArith Lia Bool.
From Verif Require Import Scalar Tensor Conv Abstract Simple LinearLayer ConvLayer PoolLayer Module Domain Objects ObjectsSpec.
Import ListNotations.
Local Open Scope nat_scope.
Local Open Scope list_scope.

Section Ind.
  Context {K : Type} (P : node K -> Prop) (Q : list (node K) -> Prop).
  Hypothesis (HL : forall o l, P (OLeaf o l)) (HP : forall o c, P (OPool o c)) (HS : forall o h ms, Q ms -> P (OSeq o h ms))
    (HK : forall o F, P F -> P (OSkip o F)) (HN : Q []) (HC : forall m ms, P m -> Q ms -> Q (m :: ms)).
  Fixpoint node_ind2 (m : node K) : P m :=
    match m with
    | OLeaf o l => HL o l
    | OPool o c => HP o c
    | OSeq o h ms => HS o h ms ((fix go l := match l return Q l with [] => HN | m :: l => HC m l (node_ind2 m) (go l) end) ms)
    | OSkip o F => HK o F (node_ind2 F)
    end.
End Ind.

Section ObjBase.
  Context {K} `{NK : Num K}.
  Notation T := (tensor K).
  Variable H : nat -> list nat.

  (** *** forward does not read the heap *)
  Lemma oforward_pure : forall (m : node K) g s x, snd (oforward H m g x) = snd (forward (erase m) s x).
  Proof.
    refine (node_ind2 (fun m => forall g s x, snd (oforward H m g x) = snd (forward (erase m) s x))
      (fun ms => forall h g ks fm x, snd (oseq_forward H (oforward H) ms g x) = snd (seq_forward forward h (map erase ms) ks x fm)) _ _ _ _ _ _).
    - reflexivity.
    - intros o c g s x. cbn. now destruct max_pool2d as [[? ?]|].
    - intros o h ms IH g s x. cbn. specialize (IH h (if h then set_fm g o [x] else g) (st_kids s) (if h then [x] else st_fm s) x).
      destruct seq_forward as [[? ?] ?]. exact IH.
    - intros o F IH g s x. cbn. unfold call. specialize (IH g (st_kid s) x).
      destruct oforward as [g1 r], forward as [k r']. cbn in *. subst r'. now destruct r.
    - reflexivity.
    - intros m ms IHm IHs h g ks fm x. cbn. unfold call. destruct (kid_split ks) as [k l].
      specialize (IHm g k x). destruct oforward as [g1 r], forward as [k1 r']. cbn in IHm. subst r'.
      destruct r as [y|]; auto. specialize (IHs h (fold_left (push y) (H (oid m)) g1) l (hook_push h fm y) y).
      destruct oseq_forward as [? ?], seq_forward as [[? ?] ?]. exact IHs.
  Qed.

  (** *** what a run on m may change *)
  Definition frame (m : node K) (g g' : heap K) : Prop :=
    (forall o, ~ In o (stateful m) -> h_idx g' o = h_idx g o) /\
    (forall o, ~ In o (stateful m) -> exists e, h_fm g' o = h_fm g o ++ e /\
       ((forall z, In z (inner m) -> ~ In o (H z)) -> e = [])).
  Definition frame_l (ms : list (node K)) (g g' : heap K) : Prop :=
    (forall o, ~ In o (flat_map stateful ms) -> h_idx g' o = h_idx g o) /\
    (forall o, ~ In o (flat_map stateful ms) -> exists e, h_fm g' o = h_fm g o ++ e /\
       ((forall z, In z (flat_map ids ms) -> ~ In o (H z)) -> e = [])).
  Lemma ids_cons (m : node K) : ids m = oid m :: inner m. Proof. now destruct m. Qed.
  Lemma frame_refl m g : frame m g g.
  Proof. split; intros; auto. exists []. now rewrite app_nil_r. Qed.
  Lemma frame_l_refl m g : frame_l m g g.
  Proof. split; intros; auto. exists []. now rewrite app_nil_r. Qed.
  Lemma frame_trans m a b c : frame m a b -> frame m b c -> frame m a c.
  Proof.
    intros [A1 A2] [B1 B2]. split; intros o N.
    - now rewrite B1, A1.
    - destruct (A2 o N) as [e [E Z]], (B2 o N) as [f [F Y]]. exists (e ++ f). split; [now rewrite F, E, app_assoc|].
      intros Q. now rewrite Z, Y.
  Qed.
  Lemma frame_l_trans m a b c : frame_l m a b -> frame_l m b c -> frame_l m a c.
  Proof.
    intros [A1 A2] [B1 B2]. split; intros o N.
    - now rewrite B1, A1.
    - destruct (A2 o N) as [e [E Z]], (B2 o N) as [f [F Y]]. exists (e ++ f). split; [now rewrite F, E, app_assoc|].
      intros Q. now rewrite Z, Y.
  Qed.
  Lemma frame_l_tl m ms a b : frame_l ms a b -> frame_l (m :: ms) a b.
  Proof.
    intros [A1 A2]. split; intros o N; cbn in N; rewrite in_app_iff in N.
    - apply A1. tauto.
    - destruct (A2 o) as [e [E Z]]; [tauto|]. exists e. split; auto. intros Q. apply Z. intros z I. apply Q. cbn. apply in_app_iff. tauto.
  Qed.
  Lemma frame_l_hd m ms a b : frame m a b -> frame_l (m :: ms) a b.
  Proof.
    intros [A1 A2]. split; intros o N; cbn in N; rewrite in_app_iff in N.
    - apply A1. tauto.
    - destruct (A2 o) as [e [E Z]]; [tauto|]. exists e. split; auto. intros Q. apply Z. intros z I. apply Q. cbn. apply in_app_iff. left.
      rewrite ids_cons. now right.
  Qed.
  Lemma frame_seq o h ms a b : frame_l ms a b -> frame (OSeq o h ms) a b.
  Proof.
    intros [A1 A2]. split; intros p N; cbn in N.
    - apply A1. tauto.
    - destruct (A2 p) as [e [E Z]]; [tauto|]. exists e. split; auto.
  Qed.
  Lemma frame_skip o F a b : frame_l [F] a b -> frame (OSkip o F) a b.
  Proof.
    intros [A1 A2]. split; intros p N; cbn in N.
    - apply A1. cbn. now rewrite app_nil_r.
    - destruct (A2 p) as [e [E Z]]; [cbn; now rewrite app_nil_r|]. exists e. split; auto. intros Q. apply Z. cbn. now rewrite app_nil_r.
  Qed.
  (** hooks *)
  Lemma push_idx (y : T) l : forall g, h_idx (fold_left (push y) l g) = h_idx g.
  Proof. induction l as [|q l IH]; intros g; cbn; auto. rewrite IH. reflexivity. Qed.
  Lemma push_fm (y : T) l : forall g o, h_fm (fold_left (push y) l g) o = h_fm g o ++ repeat y (count_occ Nat.eq_dec l o).
  Proof.
    induction l as [|q l IH]; intros g o; cbn [fold_left count_occ repeat]; [now rewrite app_nil_r|].
    rewrite IH. unfold push, set_fm; cbn [h_fm]. destruct (Nat.eq_dec q o) as [->|N].
    - rewrite Nat.eqb_refl, <- app_assoc. reflexivity.
    - destruct (Nat.eqb_spec o q); [congruence|]. reflexivity.
  Qed.
  Lemma call_frame ms m g x : In m ms -> frame m g (fst (oforward H m g x)) -> frame_l ms g (fst (call H (oforward H) m g x)).
  Proof.
    intros I [A1 A2]. unfold call. destruct oforward as [g1 [y|e]]; cbn [fst] in *.
    - split; intros o N.
      + rewrite push_idx. apply A1. intros Z. apply N. apply in_flat_map. eauto.
      + destruct (A2 o) as [e [E Z]]; [intros Z; apply N; apply in_flat_map; eauto|].
        exists (e ++ repeat y (count_occ Nat.eq_dec (H (oid m)) o)). split; [now rewrite push_fm, E, app_assoc|].
        intros Q. rewrite Z.
        * rewrite (proj1 (count_occ_not_In _ _ _)); [reflexivity|]. apply Q. apply in_flat_map. exists m. split; auto. rewrite ids_cons. now left.
        * intros z J. apply Q. apply in_flat_map. exists m. split; auto. rewrite ids_cons. now right.
    - split; intros o N.
      + apply A1. intros Z. apply N. apply in_flat_map. eauto.
      + destruct (A2 o) as [e' [E Z]]; [intros Z; apply N; apply in_flat_map; eauto|]. exists e'. split; auto. intros Q. apply Z.
        intros z J. apply Q. apply in_flat_map. exists m. split; auto. rewrite ids_cons. now right.
  Qed.
  Lemma oforward_frame : forall (m : node K) g x, frame m g (fst (oforward H m g x)).
  Proof.
    refine (node_ind2 (fun m => forall g x, frame m g (fst (oforward H m g x)))
      (fun ms => forall g x, frame_l ms g (fst (oseq_forward H (oforward H) ms g x))) _ _ _ _ _ _).
    - intros. apply frame_refl.
    - intros o c g x. cbn. destruct max_pool2d as [[? ?]|]; [|apply frame_refl]. split; intros p N; cbn in *.
      + destruct (Nat.eqb_spec p o); [subst; tauto|reflexivity].
      + exists []. now rewrite app_nil_r.
    - intros o h ms IH g x. cbn [oforward]. specialize (IH (if h then set_fm g o [x] else g) x). destruct h; [|now apply frame_seq].
      destruct IH as [A1 A2]. split; intros p N; cbn in N.
      + rewrite A1 by tauto. reflexivity.
      + destruct (A2 p) as [e [E Z]]; [tauto|]. exists e. split; auto. rewrite E. cbn. destruct (Nat.eqb_spec p o); [|reflexivity]. subst. tauto.
    - intros o F IH g x. cbn [oforward]. apply frame_skip.
      pose proof (call_frame [F] F g x (or_introl eq_refl) (IH g x)) as C. destruct call as [g1 r]. exact C.
    - intros. apply frame_l_refl.
    - intros m ms IHm IHs g x. cbn [oseq_forward].
      pose proof (call_frame (m :: ms) m g x (or_introl eq_refl) (IHm g x)) as C. destruct call as [g1 [y|e]]; [|exact C].
      eapply frame_l_trans; [exact C|]. apply frame_l_tl. apply IHs.
  Qed.

  (** *** the heap holds, at the objects of m, what the tree state s holds *)
  Fixpoint agrees (m : node K) (g : heap K) (s : st K) : Prop :=
    match m with
    | OLeaf _ _ => True
    | OPool o _ => h_idx g o = st_idx s
    | OSeq o hooks ms =>
        (hooks = true -> length ms < length (st_fm s) /\ firstn (S (length ms)) (h_fm g o) = firstn (S (length ms)) (st_fm s)) /\
        (fix go ms ks := match ms with [] => True | m :: ms => agrees m g (fst (kid_split ks)) /\ go ms (snd (kid_split ks)) end) ms (st_kids s)
    | OSkip _ F => agrees F g (st_kid s)
    end.
  Fixpoint agrees_l (ms : list (node K)) (g : heap K) (ks : list (st K)) : Prop :=
    match ms with [] => True | m :: ms => agrees m g (fst (kid_split ks)) /\ agrees_l ms g (snd (kid_split ks)) end.
  Lemma agrees_seq o h ms g s : agrees (OSeq o h ms) g s <->
    (h = true -> length ms < length (st_fm s) /\ firstn (S (length ms)) (h_fm g o) = firstn (S (length ms)) (st_fm s)) /\ agrees_l ms g (st_kids s).
  Proof.
    clear H.
    cbn [agrees]. enough (E : forall ks, (fix go ms ks := match ms with [] => True | m :: ms => agrees m g (fst (kid_split ks)) /\ go ms (snd (kid_split ks)) end) ms ks <-> agrees_l ms g ks) by now rewrite E.
    induction ms as [|m ms IH]; intros ks; cbn; [tauto|]. now rewrite IH.
  Qed.

  (** runs elsewhere keep it *)
  Definition elsewhere (l : list nat) (g g' : heap K) : Prop :=
    forall o, In o l -> h_idx g' o = h_idx g o /\ exists e, h_fm g' o = h_fm g o ++ e.
  Lemma firstn_app_eq {A} n (a b e : list A) : n < length b -> firstn (S n) a = firstn (S n) b -> firstn (S n) (a ++ e) = firstn (S n) b.
  Proof.
    intros L E. rewrite <- E. assert (Z := f_equal (@length A) E). rewrite !firstn_length in Z. rewrite firstn_app.
    replace (S n - length a) with 0 by lia. cbn [firstn]. now rewrite app_nil_r.
  Qed.
  Lemma agrees_else : forall m g g' s, elsewhere (stateful m) g g' -> agrees m g s -> agrees m g' s.
  Proof.
    refine (node_ind2 (fun m => forall g g' s, elsewhere (stateful m) g g' -> agrees m g s -> agrees m g' s)
      (fun ms => forall g g' ks, elsewhere (flat_map stateful ms) g g' -> agrees_l ms g ks -> agrees_l ms g' ks) _ _ _ _ _ _).
    - auto.
    - intros o c g g' s E A. cbn in *. destruct (E o) as [-> _]; [now left|exact A].
    - intros o h ms IH g g' s E A. apply agrees_seq in A. destruct A as [A1 A2]. apply agrees_seq. split.
      + intros Hh. destruct (A1 Hh) as [L F]. split; auto. destruct (E o) as [_ [e ->]]; [now left|]. now apply firstn_app_eq.
      + eapply IH; [|exact A2]. intros p I. apply E. now right.
    - intros o F IH g g' s E A. cbn in *. eapply IH; eauto.
    - auto.
    - intros m ms IHm IHs g g' ks E [A B]. split.
      + eapply IHm; [|exact A]. intros p I. apply E. cbn. apply in_app_iff. now left.
      + eapply IHs; [|exact B]. intros p I. apply E. cbn. apply in_app_iff. now right.
  Qed.
  Lemma agrees_l_else ms g g' ks : elsewhere (flat_map stateful ms) g g' -> agrees_l ms g ks -> agrees_l ms g' ks.
  Proof.
    revert ks. induction ms as [|m ms IH]; intros ks E A; cbn in *; auto. destruct A as [A B]. split.
    - eapply agrees_else; [|exact A]. intros p I. apply E. apply in_app_iff. now left.
    - apply IH; auto. intros p I. apply E. apply in_app_iff. now right.
  Qed.
  Lemma frame_else m g g' l : frame m g g' -> (forall o, In o l -> ~ In o (stateful m)) -> elsewhere l g g'.
  Proof. intros [A B] N o I. split; [now apply A, N|]. destruct (B o (N o I)) as [e [E _]]. eauto. Qed.
  Lemma frame_l_else ms g g' l : frame_l ms g g' -> (forall o, In o l -> ~ In o (flat_map stateful ms)) -> elsewhere l g g'.
  Proof. intros [A B] N o I. split; [now apply A, N|]. destruct (B o (N o I)) as [e [E _]]. eauto. Qed.

  (** *** the condition under which forward leaves the right heap *)
  Definition hooked_once (o : nat) (ms : list (node K)) : Prop :=
    forall c, In c ms -> count_occ Nat.eq_dec (H (oid c)) o = 1 /\ forall z, In z (inner c) -> ~ In o (H z).
  Fixpoint sep (m : node K) : Prop :=
    match m with
    | OLeaf _ _ | OPool _ _ => True
    | OSeq o hooks ms => (~ In o (flat_map stateful ms) /\ NoDup (flat_map stateful ms) /\ (hooks = true -> hooked_once o ms)) /\
        (fix go l := match l with [] => True | m :: l => sep m /\ go l end) ms
    | OSkip _ F => sep F
    end.
  Fixpoint sep_l (ms : list (node K)) : Prop := match ms with [] => True | m :: ms => sep m /\ sep_l ms end.

  Lemma nodup_app {A} (a b : list A) : NoDup (a ++ b) -> NoDup a /\ NoDup b /\ forall z, In z a -> ~ In z b.
  Proof.
    induction a as [|z a IH]; cbn; intros N; [repeat split; auto; constructor|]. apply NoDup_cons_iff in N. destruct N as [N1 N2].
    destruct (IH N2) as [A1 [A2 A3]]. rewrite in_app_iff in N1. repeat split; auto.
    - constructor; auto.
    - intros y [->|I]; auto.
  Qed.

  Lemma oforward_agrees : forall m, sep m -> forall g s x y, snd (forward (erase m) s x) = Ok y ->
    agrees m (fst (oforward H m g x)) (fst (forward (erase m) s x)).
  Proof.
    refine (node_ind2 (fun m => sep m -> forall g s x y, snd (forward (erase m) s x) = Ok y -> agrees m (fst (oforward H m g x)) (fst (forward (erase m) s x)))
      (fun ms => sep_l ms -> NoDup (flat_map stateful ms) -> forall o h g ks fm fm' x y,
         snd (seq_forward forward h (map erase ms) ks x fm) = Ok y -> ~ In o (flat_map stateful ms) -> (h = true -> hooked_once o ms) ->
         let g' := fst (oseq_forward H (oforward H) ms g x) in
         let ks' := fst (fst (seq_forward forward h (map erase ms) ks x fm)) in
         let fm1 := snd (fst (seq_forward forward h (map erase ms) ks x fm)) in
         agrees_l ms g' ks' /\
         (h = true -> h_fm g o = fm' -> exists e, fm1 = fm ++ e /\ h_fm g' o = fm' ++ e /\ length e = length ms)) _ _ _ _ _ _).
    - cbn. auto.
    - intros o c _ g s x y. cbn. destruct max_pool2d as [[v i]|]; cbn; [|discriminate]. intros _. now rewrite Nat.eqb_refl.
    - intros o h ms IH S g s x y E. cbn [sep] in S. destruct S as [[S1 [S2 S3]] S4].
      assert (S5 : sep_l ms) by (clear -S4; induction ms; cbn in *; tauto).
      set (fm := if h then [x] else st_fm s) in *.
      specialize (IH S5 S2 o h (if h then set_fm g o [x] else g) (st_kids s) fm (h_fm (if h then set_fm g o [x] else g) o) x y).
      cbn [erase forward] in E |- *. cbn [oforward]. fold fm in E |- *.
      destruct seq_forward as [[ks1 fm1] r]. cbn [fst snd] in *. specialize (IH E S1 S3). destruct IH as [A B]. cbn [fst snd] in *.
      apply agrees_seq. cbn [st_fm st_kids]. split; [|exact A].
      intros ->. destruct (B eq_refl eq_refl) as [e [E1 [E2 L]]]. cbn in E2. rewrite Nat.eqb_refl in E2. unfold fm in E1. cbn in E1.
      rewrite E1, E2. cbn [length app]. split; [lia|reflexivity].
    - intros o F IH S g s x y E. cbn in *. specialize (IH S g (st_kid s) x). unfold call.
      pose proof (oforward_pure F g (st_kid s) x) as P. destruct (oforward H F g x) as [g1 r], (forward (erase F) (st_kid s) x) as [k r']. cbn in *. subst r'.
      destruct r as [z|]; [|discriminate]. cbn. eapply agrees_else; [|eapply IH; reflexivity].
      intros p _. rewrite push_idx, push_fm. eauto.
    - cbn. intros _ _ o h g ks fm fm' x y _ _ _. split; auto. intros _ ->. exists []. now rewrite !app_nil_r.
    - intros m ms IHm IHs [Sm Ss] ND o h g ks fm fm' x y E No Ho. cbn [flat_map] in ND, No. apply nodup_app in ND. destruct ND as [D1 [D2 D3]].
      rewrite in_app_iff in No. cbn [map seq_forward] in E |- *. cbn [oseq_forward]. unfold call.
      destruct (kid_split ks) as [k l]. pose proof (oforward_pure m g k x) as P. pose proof (oforward_frame m g x) as Fr.
      specialize (IHm Sm g k x). destruct (oforward H m g x) as [g1 r], (forward (erase m) k x) as [k1 r']. cbn [fst snd] in *. subst r'.
      destruct r as [z|e]; [|discriminate].
      specialize (IHs Ss D2 o h (fold_left (push z) (H (oid m)) g1) l (hook_push h fm z) (h_fm (fold_left (push z) (H (oid m)) g1) o) z y).
      destruct seq_forward as [[ks1 fm1] r] eqn:SF. cbn [fst snd] in *. destruct IHs as [A B]; [exact E|tauto| |].
      { intros Hh. specialize (Ho Hh). intros c I. apply Ho. now right. }
      assert (Fl : frame_l ms (fold_left (push z) (H (oid m)) g1) (fst (oseq_forward H (oforward H) ms (fold_left (push z) (H (oid m)) g1) z))).
      { clear. generalize (fold_left (push z) (H (oid m)) g1). revert z. induction ms as [|c ms IH]; intros z g; [apply frame_l_refl|].
        cbn [oseq_forward]. pose proof (call_frame (c :: ms) c g z (or_introl eq_refl) (oforward_frame c g z)) as C.
        destruct call as [g2 [y|e]]; [|exact C]. eapply frame_l_trans; [exact C|]. apply frame_l_tl. apply IH. }
      split.
      + cbn [agrees_l kid_split fst snd]. split; [|exact A]. eapply agrees_else; [eapply frame_l_else; [exact Fl|]; intros p I; now apply D3|].
        eapply agrees_else; [|eapply IHm; reflexivity]. intros p _. rewrite push_idx, push_fm. eauto.
      + intros -> Hg. destruct (B eq_refl eq_refl) as [e [E1 [E2 L]]]. cbn [hook_push] in E1. exists (z :: e). rewrite E1, E2. cbn [length].
        repeat split; [now rewrite <- app_assoc| |now rewrite L].
        destruct (Ho eq_refl m (or_introl eq_refl)) as [C1 C2]. rewrite push_fm, C1. cbn [repeat].
        destruct Fr as [_ Fr]. destruct (Fr o) as [e0 [F1 F2]]; [tauto|]. rewrite F1, (F2 C2), app_nil_r, Hg, <- app_assoc. reflexivity.
  Qed.

  (** *** reads of feature_maps *)
  Definition same_reads (h : bool) (l l' : list T) (k n : nat) : Prop := forall j, k <= j < k + n -> fmap2 h l j = fmap2 h l' j.
  Lemma nth_firstn_eq {A} n (a b : list A) k : firstn n a = firstn n b -> k < n -> nth_error a k = nth_error b k.
  Proof.
    intros E L. rewrite <- (firstn_skipn n a), <- (firstn_skipn n b). rewrite E.
    destruct (Nat.lt_ge_cases k (length (firstn n b))) as [Z|Z]; [now rewrite !nth_error_app1|].
    assert (Y : length (firstn n a) < n) by (rewrite E; lia). assert (X : length (firstn n b) < n) by lia.
    rewrite firstn_length in X, Y. rewrite !nth_error_app2 by auto. rewrite !skipn_all2 by lia. reflexivity.
  Qed.
  Lemma agrees_reads o h ms g s : agrees (OSeq o h ms) g s -> same_reads h (h_fm g o) (st_fm s) 0 (length ms).
  Proof.
    intros A j L. apply agrees_seq in A. destruct A as [A _]. unfold fmap2, fmap_at. destruct h; [|reflexivity].
    destruct (A eq_refl) as [_ E]. rewrite !(nth_firstn_eq _ _ _ _ E) by lia. reflexivity.
  Qed.
  Lemma reads_tl h l l' k n : same_reads h l l' k (S n) -> same_reads h l l' (S k) n.
  Proof. intros E j L. apply E. lia. Qed.
  Lemma reads_hd h l l' k n : same_reads h l l' k (S n) -> fmap2 h l k = fmap2 h l' k.
  Proof. intros E. apply E. lia. Qed.
End ObjBase.
