(** The layers without hidden state in the storage model. *)
From Coq Require Import String Ascii List Arith ZArith Lia Bool FinFun.
From Verif Require Import Scalar Tensor Conv Abstract Simple LinearLayer ConvLayer PoolLayer Module.
From Verif Require Import TensorLemmas OpLemmas EinsumLemmas HooksSpec Loud.
From Verif Require Import Storage StorageBase StorageFwd StorageLoops StorageSum StorageJmj.
Import ListNotations.
Local Open Scope nat_scope.
Local Open Scope list_scope.

(** *** With respect to the input every layer answers with a tensor *)
Section Nn.
  Context {K} `{NK : Num K}.
  Notation T := (tensor K).
  Definition lanswers (l : leaf K) : Prop := match l with Custom c => custom_answers c | _ => True end.
  Ltac head_of c := match c with ?f _ => head_of f | _ => c end.
  Ltac nn E := repeat first [progress cbn [bind] in E
    | progress unfold check in E
    | match type of E with
    | some _ = Ok None => exact (some_nn _ E)
    | bind ?r _ = Ok _ => destruct r as [?|?] eqn:?; [|discriminate E]
    | (if ?c then _ else _) = Ok _ => destruct c eqn:?
    | (match ?c with _ => _ end) = Ok _ => destruct c eqn:?
    | ?c = _ => let h := head_of c in progress unfold h in E
    end]; try discriminate E.
  Ltac fin := repeat match goal with
    | H : custom_answers _ |- _ => solve [eapply H; eauto]
    | H : act_jacobian _ _ _ _ _ = Ok None |- _ => solve [unfold act_jacobian in H; nn H]
    | H : l2_jacobian _ _ _ _ = Ok None |- _ => solve [unfold l2_jacobian in H; nn H]
    | H : id_jacobian _ _ _ _ = Ok None |- _ => solve [unfold id_jacobian in H; nn H]
    | H : ad_modes _ _ _ _ = Ok None |- _ => solve [unfold ad_modes in H; nn H]
    | H : some _ = Ok None |- _ => exact (some_nn _ H)
    end.
  Lemma leafnn_jacobian (l : leaf K) x val : lanswers l -> leaf_jacobian l x val Input <> Ok None.
  Proof. intros A E. destruct l; cbn [leaf_jacobian lanswers] in A, E; nn E; fin. Qed.
  Lemma leafnn_jvp (l : leaf K) x val v : lanswers l -> leaf_jvp l x val v Input <> Ok None.
  Proof. intros A E. destruct l; cbn [leaf_jvp lanswers] in A, E; nn E; fin. Qed.
  Lemma leafnn_vjp (l : leaf K) x val v : lanswers l -> leaf_vjp l x val v Input <> Ok None.
  Proof. intros A E. destruct l; cbn [leaf_vjp lanswers] in A, E; nn E; fin. Qed.
  Lemma leafnn_jmp (l : leaf K) x val v : lanswers l -> leaf_jmp l x val v Input <> Ok None.
  Proof. intros A E. destruct l; cbn [leaf_jmp lanswers] in A, E; nn E; fin. Qed.
  Lemma leafnn_mjp (l : leaf K) x val v : lanswers l -> leaf_mjp l x val v Input <> Ok None.
  Proof. intros A E. destruct l; cbn [leaf_mjp lanswers] in A, E; nn E; fin. Qed.
  Lemma leafnn_jmjTp (l : leaf K) x val v fd td db : lanswers l -> leaf_jmjTp l x val v Input fd td db <> Ok None.
  Proof. intros A E. destruct l; cbn [leaf_jmjTp lanswers] in A, E; nn E; fin. Qed.
  Lemma leafnn_jTmjp (l : leaf K) x val v fd td db : lanswers l -> leaf_jTmjp l x val v Input fd td db <> Ok None.
  Proof. intros A E. destruct l; cbn [leaf_jTmjp lanswers] in A, E; nn E; fin. Qed.
End Nn.

Section StorageLeaf.
  Context {K} `{CR : CRing K}.
  Notation T := (tensor K).
  Notation mem := (mem K).
  Implicit Types g : mem.
  Notation CallO := (Call Ro hof_opt).

  (** *** A computed result *)
  Lemma fresh_call g g1 s s1 vs1 x a w t g' r : keeps g g1 -> Rs g1 s1 vs1 ->
    grows g g1 (locs s ++ [rl x]) (locs s1) -> (w = Input -> t <> Ok None) -> fresh_opt g1 t = (g', r) ->
    CallO g s x a w g' s1 r (vs1, t).
  Proof.
    intros K1 R1 G1 Nn E. destruct (fresh_opt_ok _ _ _ _ E) as (K2 & R2 & O2).
    pose proof (k_len _ _ _ K1). pose proof (k_len _ _ _ K2).
    split; [eapply keeps_trans; eauto|]. split; [exact (keeps_Rs _ _ _ _ K2 R1)|]. split; [exact R2|]. split.
    - intros l Hl. apply G1 in Hl as [|]; [auto|right; lia].
    - intros q Hq. split.
      + intros Hw Hn. subst r. destruct q; [discriminate|]. cbn in R2. destruct t as [[t|]|]; tauto.
      + apply (O2 q Hq); [auto|apply R1].
  Qed.
  Lemma par_call g s vs x t g' r : Rs g s vs -> t <> Ok None -> fresh_par g t = (g', r) ->
    CallO g s x HN Input g' s r (vs, t).
  Proof.
    intros R1 Nn E. destruct (fresh_par_ok _ _ _ _ E) as (K2 & R2 & O2). pose proof (k_len _ _ _ K2).
    split; [auto|]. split; [exact (keeps_Rs _ _ _ _ K2 R1)|]. split; [exact R2|]. split.
    - intros l Hl. left. apply in_or_app. auto.
    - intros q Hq. split.
      + intros Hw Hn. subst r. destruct q; [discriminate|]. cbn in R2. destruct t as [[t|]|]; tauto.
      + apply (O2 q Hq); [auto|apply R1].
  Qed.
  Lemma same_call g s vs x a va : Rs g s vs -> Rr g a va ->
    CallO g s x (HT a) Input g s (Ok (Some a)) (vs, Ok (Some va)).
  Proof.
    intros R Ra. split; [apply keeps_refl|]. split; [exact R|]. split; [exact Ra|]. split.
    - intros l Hl. left. apply in_or_app. auto.
    - intros q [= <-]. split; [discriminate|]. now apply outv_same.
  Qed.
  Lemma raise_call {V VV} (RV : mem -> V -> VV -> Prop) tv g g1 s s1 vs1 x a w e e' : keeps g g1 -> Rs g1 s1 vs1 ->
    grows g g1 (locs s ++ [rl x]) (locs s1) -> e = e' ->
    Call RV tv g s x a w g1 s1 (Raise e) (vs1, Raise e').
  Proof.
    intros K1 R G ->. split; [auto|]. split; [exact R|]. split; [reflexivity|]. split; [exact G|discriminate].
  Qed.
  Lemma none_call g g1 s s1 vs1 x a w : keeps g g1 -> Rs g1 s1 vs1 ->
    grows g g1 (locs s ++ [rl x]) (locs s1) -> w <> Input ->
    CallO g s x a w g1 s1 (Ok None) (vs1, Ok None).
  Proof.
    intros K1 R G Nw. split; [auto|]. split; [exact R|]. split; [exact I|]. split; [exact G|].
    intros q [= <-]. split; [contradiction|]. apply outv_none.
  Qed.
  Lemma grows_refl g s (x : ref) : grows g g (locs s ++ [rl x]) (locs s).
  Proof. intros l Hl. left. apply in_or_app. auto. Qed.

  (** *** The diagonal *)
  Lemma rd_shape g r : shape (rd g r) = shape (rix r).
  Proof. reflexivity. Qed.
  Lemma get_rd g r idx : get n0 (rd g r) idx = look (store g (rl r)) (get None (rix r) idx).
  Proof. apply get_tmap. Qed.
  Lemma NoDup_map_in {A B} (h : A -> B) l : NoDup l -> (forall a b, In a l -> In b l -> h a = h b -> a = b) ->
    NoDup (map h l).
  Proof.
    induction 1 as [|a l Na N IH]; cbn; intros I; constructor.
    - intros M. apply in_map_iff in M as (b & E & Hb). apply Na. rewrite (I a b); auto.
    - apply IH. auto.
  Qed.
  Lemma valid2 b n k : k < numel [b; n] -> valid [b; n; n] [i_ 0 (unravel [b; n] k); i_ 1 (unravel [b; n] k); i_ 1 (unravel [b; n] k)].
  Proof.
    intros Hk. apply unravel_valid in Hk. destruct (unravel [b; n] k) as [|q [|i [|]]]; cbn in *; tauto.
  Qed.
  Lemma NoDup_diag b n (t : tensor (option nat)) : shape t = [b; n; n] -> wf t -> NoDup (data t) ->
    NoDup (data (tab2 b n (fun q i => get None t [q; i; i]))).
  Proof.
    intros Sh W N. unfold tab2, tab. cbn [data]. apply NoDup_map_in; [apply seq_NoDup|].
    intros k k' Hk Hk' E. apply in_seq in Hk, Hk'. unfold get in E. rewrite Sh in E.
    pose proof (valid2 b n k ltac:(lia)) as V. pose proof (valid2 b n k' ltac:(lia)) as V'.
    pose proof (ravel_lt _ _ V). pose proof (ravel_lt _ _ V').
    rewrite NoDup_nth in N. apply N in E; [|rewrite W, Sh; auto|rewrite W, Sh; auto].
    apply ravel_inj in E; auto.
    rewrite <- (ravel_unravel [b; n] k), <- (ravel_unravel [b; n] k') by lia. f_equal.
    pose proof (unravel_valid [b; n] k ltac:(lia)) as U. pose proof (unravel_valid [b; n] k' ltac:(lia)) as U'.
    revert E U U'. generalize (unravel [b; n] k) (unravel [b; n] k'). intros u u' E U U'.
    destruct u as [|q [|i [|]]], u' as [|q' [|i' [|]]]; cbn in U, U'; try tauto.
    unfold i_ in E. cbn in E. congruence.
  Qed.
  Lemma hdiag_ok g m vm g' r : Rr g m vm -> hdiag g m = (g', r) ->
    keeps g g' /\ RR (Rr g') r (einsum "bii->bi"%string [vm]) /\
    (forall q, r = Ok q -> forall L, (forall l, In l L -> l < len g) -> outv g (HT m) Input g' L (HT q)).
  Proof.
    intros [<- L] E.
    assert (F : forall t, fresh g t = (g', r) -> keeps g g' /\ RR (Rr g') r t /\
      (forall q, r = Ok q -> forall L, (forall l, In l L -> l < len g) -> outv g (HT m) Input g' L (HT q))).
    { intros t Et. destruct (fresh_ok _ _ _ _ Et) as (K1 & R1 & O1). split; [auto|]. split; [auto|].
      intros q Hq L0 B. destruct (O1 q Hq) as (Eq & Lt & P). split; [|left; auto]. cbn. intros l [<-|[]]. left.
      split; [lia|]. intros I. apply B in I. lia. }
    unfold hdiag in E. destruct (shape (rix m)) as [|b [|n [|n' [|]]]] eqn:Sh; try (now apply F).
    destruct (Nat.eqb n n' && wfb (rix m)) eqn:C; [|now apply F].
    apply andb_true_iff in C as [C W]. apply Nat.eqb_eq in C. subst n'. injection E as <- <-.
    rewrite (es_bii_to_bi (rd g m) b n) by now rewrite rd_shape.
    split; [apply keeps_refl|]. split.
    - split; [|exact L]. unfold rd. cbn [rl rix]. unfold tab2. rewrite tmap_tab. apply tab_ext'.
      intros i. symmetry. apply get_rd.
    - intros q [= <-] L0 B. split; [cbn; auto|]. right. split; [auto|]. right. exists m. split; [auto|].
      intros (P & N & Q). split; [exact P|]. cbn [rix rl]. split.
      + apply NoDup_diag; auto. apply Nat.eqb_eq, W.
      + intros o Ho. apply Q. unfold tab2, tab in Ho. cbn [data] in Ho. apply in_map_iff in Ho as (k & <- & Hk).
        apply in_seq in Hk. unfold get. apply nth_In. apply Nat.eqb_eq in W. rewrite W, Sh. apply ravel_lt, valid2. lia.
  Qed.

  (** *** The methods *)
  Notation mspecA f vf RA ta m := (forall g s vs x vx val vval a va w g' s' r,
    Rs g s vs -> Rr g x vx -> Ro g val vval -> RA g a va -> f m g s x val a w = (g', s', r) ->
    CallO g s x (ta a) w g' s' r (vf m vs vx vval va w)).
  Definition mspecR (f : module K -> mem -> hst -> ref -> option ref -> ref -> wrt -> mem * hst * res (option ref))
    (vf : module K -> st K -> T -> option T -> T -> wrt -> st K * res (option T)) (m : module K) : Prop :=
    mspecA f vf Rr HT m.
  Definition mspecO (f : module K -> mem -> hst -> ref -> option ref -> option ref -> wrt -> mem * hst * res (option ref))
    (vf : module K -> st K -> T -> option T -> option T -> wrt -> st K * res (option T)) (m : module K) : Prop :=
    mspecA f vf Ro hof_opt m.
  Lemma rdo_eq g v vv : Ro g v vv -> rdo g v = vv.
  Proof. destruct v as [r|], vv as [t|]; cbn; try tauto. now intros [-> _]. Qed.

  Lemma leaf_vjp_call l g s vs x vx val vval a va w g' r : lanswers l -> Rs g s vs -> Rr g x vx -> Ro g val vval ->
    Rr g a va -> hleaf_vjp g l x val a w = (g', r) -> CallO g s x (HT a) w g' s r (vs, leaf_vjp l vx vval va w).
  Proof.
    intros A R Rx Rv Ra E. pose proof (rdo_eq _ _ _ Rv) as Ev. pose proof (proj1 Rx) as Ex. pose proof (proj1 Ra) as Ea.
    assert (F : fresh_opt g (leaf_vjp l vx vval va w) = (g', r) -> CallO g s x (HT a) w g' s r (vs, leaf_vjp l vx vval va w)).
    { apply fresh_call; auto using keeps_refl, grows_refl. intros ->. now apply leafnn_vjp. }
    destruct l; try (apply F; rewrite <- Ex, <- Ea, <- Ev; exact E).
    all: destruct w; [injection E as <- <-; now apply same_call|apply F; rewrite <- Ex, <- Ea, <- Ev; exact E..].
  Qed.
  Lemma leaf_jvp_call l g s vs x vx val vval a va w g' r : lanswers l -> Rs g s vs -> Rr g x vx -> Ro g val vval ->
    Rr g a va -> hleaf_jvp g l x val a w = (g', r) -> CallO g s x (HT a) w g' s r (vs, leaf_jvp l vx vval va w).
  Proof.
    intros A R Rx Rv Ra E. pose proof (rdo_eq _ _ _ Rv) as Ev. pose proof (proj1 Rx) as Ex. pose proof (proj1 Ra) as Ea.
    assert (F : fresh_opt g (leaf_jvp l vx vval va w) = (g', r) -> CallO g s x (HT a) w g' s r (vs, leaf_jvp l vx vval va w)).
    { apply fresh_call; auto using keeps_refl, grows_refl. intros ->. now apply leafnn_jvp. }
    destruct l; try (apply F; rewrite <- Ex, <- Ea, <- Ev; exact E).
    all: destruct w; [injection E as <- <-; now apply same_call|apply F; rewrite <- Ex, <- Ea, <- Ev; exact E..].
  Qed.
  Lemma leaf_jacobian_call l g s vs x vx val vval w g' r : lanswers l -> Rs g s vs -> Rr g x vx -> Ro g val vval ->
    hleaf_jacobian g l x val w = (g', r) -> CallO g s x HN w g' s r (vs, leaf_jacobian l vx vval w).
  Proof.
    intros A R Rx Rv E. pose proof (rdo_eq _ _ _ Rv) as Ev. pose proof (proj1 Rx) as Ex.
    assert (F : fresh_opt g (leaf_jacobian l vx vval w) = (g', r) -> CallO g s x HN w g' s r (vs, leaf_jacobian l vx vval w)).
    { apply fresh_call; auto using keeps_refl, grows_refl. intros ->. now apply leafnn_jacobian. }
    destruct l; try (apply F; rewrite <- Ex, <- Ev; exact E).
    destruct w; [|apply F; rewrite <- Ex, <- Ev; exact E..].
    apply par_call; auto; [now apply leafnn_jacobian|]. rewrite <- Ex, <- Ev. exact E.
  Qed.
  Lemma leaf_mjp_call l g s vs x vx val vval a va w g' r : lanswers l -> Rs g s vs -> Rr g x vx -> Ro g val vval ->
    Ro g a va -> hleaf_mjp g l x val a w = (g', r) -> CallO g s x (hof_opt a) w g' s r (vs, leaf_mjp l vx vval va w).
  Proof.
    intros A R Rx Rv Ra E. pose proof (rdo_eq _ _ _ Rv) as Ev. pose proof (proj1 Rx) as Ex. pose proof (rdo_eq _ _ _ Ra) as Ea.
    assert (F : fresh_opt g (leaf_mjp l vx vval va w) = (g', r) -> CallO g s x (hof_opt a) w g' s r (vs, leaf_mjp l vx vval va w)).
    { apply fresh_call; auto using keeps_refl, grows_refl. intros ->. now apply leafnn_mjp. }
    destruct a as [a|], va as [va|]; cbn in Ra; try contradiction; cbn [rdo] in Ea;
      destruct l; try (apply F; rewrite <- Ex, <- Ea, <- Ev; exact E).
    - destruct w; [injection E as <- <-; now apply same_call|apply F; rewrite <- Ex, <- Ea, <- Ev; exact E..].
    - destruct w; [injection E as <- <-; now apply same_call|apply F; rewrite <- Ex, <- Ea, <- Ev; exact E..].
    - destruct w; [|apply F; rewrite <- Ex, <- Ev; exact E..].
      apply par_call; auto; [now apply leafnn_mjp|]. rewrite <- Ex, <- Ev. exact E.
  Qed.
  Lemma leaf_jmp_call l g s vs x vx val vval a va w g' r : lanswers l -> Rs g s vs -> Rr g x vx -> Ro g val vval ->
    Ro g a va -> hleaf_jmp g l x val a w = (g', r) -> CallO g s x (hof_opt a) w g' s r (vs, leaf_jmp l vx vval va w).
  Proof.
    intros A R Rx Rv Ra E. pose proof (rdo_eq _ _ _ Rv) as Ev. pose proof (proj1 Rx) as Ex. pose proof (rdo_eq _ _ _ Ra) as Ea.
    assert (F : fresh_opt g (leaf_jmp l vx vval va w) = (g', r) -> CallO g s x (hof_opt a) w g' s r (vs, leaf_jmp l vx vval va w)).
    { apply fresh_call; auto using keeps_refl, grows_refl. intros ->. now apply leafnn_jmp. }
    destruct a as [a|], va as [va|]; cbn in Ra; try contradiction; cbn [rdo] in Ea;
      destruct l; try (apply F; rewrite <- Ex, <- Ea, <- Ev; exact E).
    - destruct w; [injection E as <- <-; now apply same_call|apply F; rewrite <- Ex, <- Ea, <- Ev; exact E..].
    - destruct w; [injection E as <- <-; now apply same_call|apply F; rewrite <- Ex, <- Ea, <- Ev; exact E..].
    - destruct w; [|apply F; rewrite <- Ex, <- Ev; exact E..].
      apply par_call; auto; [now apply leafnn_jmp|]. rewrite <- Ex, <- Ev. exact E.
  Qed.
  (** flatten.py:94-108: the four modes *)
  Lemma modes_call g s vs x a va (fd td : bool) g' r : Rs g s vs -> Rr g a va ->
    match fd, td with
    | false, false | true, true => (g, Ok (Some a))
    | false, true => hsome (hdiag g a)
    | true, false => fresh_opt g (some (diag_embed (rd g a)))
    end = (g', r) -> CallO g s x (HT a) Input g' s r (vs, id_modes va Input fd td).
  Proof.
    intros R Ra E. destruct fd, td; cbn [id_modes].
    - injection E as <- <-. now apply same_call.
    - rewrite (proj1 Ra) in E. revert E. apply fresh_call; auto using keeps_refl, grows_refl. intros _. apply some_nn.
    - destruct (hdiag g a) as [g1 r1] eqn:E1. cbn [hsome] in E. injection E as <- <-.
      destruct (hdiag_ok _ _ _ _ _ Ra E1) as (K1 & R1 & O1).
      split; [auto|]. split; [exact (keeps_Rs _ _ _ _ K1 R)|]. split.
      + cbn [snd]. destruct r1, (einsum "bii->bi"%string [va]); exact R1.
      + split; [intros l Hl; left; apply in_or_app; auto|]. intros q Hq.
        destruct r1 as [q1|]; [|discriminate]. cbn in Hq. injection Hq as <-. split; [discriminate|].
        apply (O1 q1 eq_refl). apply R.
    - injection E as <- <-. now apply same_call.
  Qed.
  Lemma leaf_jmjTp_call l g s vs x vx val vval a va w fd td db g' r : lanswers l -> Rs g s vs -> Rr g x vx ->
    Ro g val vval -> Ro g a va -> hleaf_jmjTp g l x val a w fd td db = (g', r) ->
    CallO g s x (hof_opt a) w g' s r (vs, leaf_jmjTp l vx vval va w fd td db).
  Proof.
    intros A R Rx Rv Ra E. pose proof (rdo_eq _ _ _ Rv) as Ev. pose proof (proj1 Rx) as Ex. pose proof (rdo_eq _ _ _ Ra) as Ea.
    assert (F : fresh_opt g (leaf_jmjTp l vx vval va w fd td db) = (g', r) ->
                CallO g s x (hof_opt a) w g' s r (vs, leaf_jmjTp l vx vval va w fd td db)).
    { apply fresh_call; auto using keeps_refl, grows_refl. intros ->. now apply leafnn_jmjTp. }
    destruct a as [a|], va as [va|]; cbn in Ra; try contradiction; cbn [rdo] in Ea;
      destruct l; try (apply F; rewrite <- Ex, <- Ea, <- Ev; exact E).
    all: destruct w; [|apply F; rewrite <- Ex, <- Ea, <- Ev; exact E..].
    all: exact (modes_call g s vs x a va fd td g' r R Ra E).
  Qed.
  Lemma leaf_jTmjp_call l g s vs x vx val vval a va w fd td db g' r : lanswers l -> Rs g s vs -> Rr g x vx ->
    Ro g val vval -> Ro g a va -> hleaf_jTmjp g l x val a w fd td db = (g', r) ->
    CallO g s x (hof_opt a) w g' s r (vs, leaf_jTmjp l vx vval va w fd td db).
  Proof.
    intros A R Rx Rv Ra E. pose proof (rdo_eq _ _ _ Rv) as Ev. pose proof (proj1 Rx) as Ex. pose proof (rdo_eq _ _ _ Ra) as Ea.
    assert (F : fresh_opt g (leaf_jTmjp l vx vval va w fd td db) = (g', r) ->
                CallO g s x (hof_opt a) w g' s r (vs, leaf_jTmjp l vx vval va w fd td db)).
    { apply fresh_call; auto using keeps_refl, grows_refl. intros ->. now apply leafnn_jTmjp. }
    destruct a as [a|], va as [va|]; cbn in Ra; try contradiction; cbn [rdo] in Ea;
      destruct l; try (apply F; rewrite <- Ex, <- Ea, <- Ev; exact E).
    all: destruct w; [|apply F; rewrite <- Ex, <- Ea, <- Ev; exact E..].
    all: cbn [hleaf_jTmjp] in E; cbn [leaf_jTmjp]; unfold id_jTmjp; rewrite Ex in E;
      destruct val as [v|], vval as [vv|]; cbn in Rv; try contradiction; cbn [bind].
    1, 3: exact (modes_call g s vs x a va fd td g' r R Ra E).
    - cbn [leaf_forward] in E. destruct (flatten_forward vx) as [y|e]; cbn [bind] in E |- *.
      + exact (modes_call g s vs x a va fd td g' r R Ra E).
      + injection E as <- <-. apply raise_call; auto using keeps_refl, grows_refl.
    - cbn [leaf_forward] in E. destruct (reshape_forward _ vx) as [y|e]; cbn [bind] in E |- *.
      + exact (modes_call g s vs x a va fd td g' r R Ra E).
      + injection E as <- <-. apply raise_call; auto using keeps_refl, grows_refl.
  Qed.
End StorageLeaf.
