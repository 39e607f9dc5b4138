(** The forward pass of a module tree: it does not depend on the hidden state, it succeeds on well-shaped
    input, and it leaves the hidden state describing this forward pass. *)
From Coq Require Import String Ascii List Arith ZArith Lia Bool.
From Verif Require Import Scalar Sums Tensor TensorLemmas EinsumLemmas Conv Abstract Simple LinearLayer ConvLayer PoolLayer
  Module Spec OpLemmas ReshapeLemmas Jac LeafSpec.
Import ListNotations.
Local Open Scope nat_scope.
Local Open Scope list_scope.

Section Ind.
  Context {K : Type}.
  Variables (P : module K -> Prop) (Q : list (module K) -> Prop).
  Hypothesis HL : forall l, P (Leaf l).
  Hypothesis HP : forall c, P (MaxPool c).
  Hypothesis HS : forall h ms, Q ms -> P (Seq h ms).
  Hypothesis HK : forall F, P F -> P (Skip F).
  Hypothesis HN : Q [].
  Hypothesis HC : forall m ms, P m -> Q ms -> Q (m :: ms).
  Fixpoint module_ind2 (m : module K) : P m :=
    match m with
    | Leaf l => HL l
    | MaxPool c => HP c
    | Seq h ms => HS h ms ((fix go l := match l return Q l with
                                       | [] => HN
                                       | m :: l => HC m l (module_ind2 m) (go l)
                                       end) ms)
    | Skip F => HK F (module_ind2 F)
    end.
End Ind.

Section Base.
  Context {K} `{CR : CRing K}.
  Notation gt := (get (@n0 K _)).
  Notation T := (tensor K).

  (** composition of the functions of a list of modules *)
  Fixpoint fwd_seq (ms : list (module K)) (x : T) : res T :=
    match ms with [] => Ok x | m :: ms => y <- fwd m x ;; fwd_seq ms y end.

  Lemma forward_pure_gen : forall m : module K, forall s s' x, snd (forward m s x) = snd (forward m s' x).
  Proof.
    refine (module_ind2 (fun m => forall s s' x, snd (forward m s x) = snd (forward m s' x)) (fun ms => forall h ks ks' fm fm' x,
      snd (seq_forward forward h ms ks x fm) = snd (seq_forward forward h ms ks' x fm')) _ _ _ _ _ _).
    - reflexivity.
    - intros c s s' x. cbn. now destruct max_pool2d as [[? ?]|].
    - intros h ms IH s s' x. cbn.
      specialize (IH h (st_kids s) (st_kids s') (if h then [x] else st_fm s) (if h then [x] else st_fm s') x).
      destruct seq_forward as [[? ?] ?], seq_forward as [[? ?] ?]. exact IH.
    - intros F IH s s' x. cbn. specialize (IH (st_kid s) (st_kid s') x).
      destruct forward, forward. cbn in *. now rewrite IH.
    - reflexivity.
    - intros m ms IHm IHs h ks ks' fm fm' x. cbn.
      destruct (kid_split ks) as [k l], (kid_split ks') as [k' l'].
      specialize (IHm k k' x). destruct forward as [k1 r], forward as [k1' r']. cbn in IHm. subst r'.
      destruct r as [y|]; auto. specialize (IHs h l l' (hook_push h fm y) (hook_push h fm' y) y).
      destruct seq_forward as [[? ?] ?], seq_forward as [[? ?] ?]. exact IHs.
  Qed.
  Lemma forward_pure (m : module K) s x : snd (forward m s x) = fwd m x.
  Proof. apply forward_pure_gen. Qed.
  Lemma forward_eta (m : module K) s x : forward m s x = (fst (forward m s x), fwd m x).
  Proof. rewrite <- (forward_pure m s x). now destruct forward. Qed.

  Lemma seq_forward_pure h (ms : list (module K)) : forall ks fm x, snd (seq_forward forward h ms ks x fm) = fwd_seq ms x.
  Proof.
    induction ms as [|m ms IH]; intros; auto. cbn. destruct kid_split as [k l].
    rewrite forward_eta. destruct (fwd m x) as [y|]; auto. cbn. rewrite <- (IH l (hook_push h fm y) y).
    now destruct seq_forward as [[? ?] ?].
  Qed.
  Lemma fwd_Leaf l x : fwd (Leaf l : module K) x = leaf_forward l x. Proof. reflexivity. Qed.
  Lemma fwd_Pool c x : fwd (MaxPool c : module K) x = (p <- max_pool2d c x ;; Ok (fst p)).
  Proof. unfold fwd. cbn. now destruct max_pool2d as [[? ?]|]. Qed.
  Lemma fwd_Seq h ms x : fwd (Seq h ms) x = fwd_seq ms x.
  Proof.
    unfold fwd. cbn. rewrite <- (seq_forward_pure h ms (st_kids st0) (if h then [x] else st_fm st0) x).
    now destruct seq_forward as [[? ?] ?].
  Qed.
  Lemma fwd_Skip F x : fwd (Skip F) x = (y <- fwd F x ;; cat n0 1 [x; y]).
  Proof. unfold fwd at 1. cbn. rewrite (forward_eta F). reflexivity. Qed.

  (** *** torch.cat along dimension 1 of tensors of any rank, seen per sample *)
  Lemma per_shape (x : T) b s : shape x = b :: s -> per x = numel s.
  Proof. intros S. unfold per. now rewrite S. Qed.

  (** base hypotheses: the contracts of the layers *)
  Definition base_fwd : Prop := forall l s s', leaf_typed l s s' -> @leaf_fwd_spec K _ l s s'.
  Definition pool_fwd_spec cfg (s s' : list nat) : Prop := forall b (x : T), 0 < b -> wf x -> shape x = b :: s ->
    exists y i, max_pool2d cfg x = Ok (y, i) /\ wf y /\ shape y = b :: s'.
  Definition base_pool_fwd : Prop := forall cfg s s', pool_typed cfg s s' -> pool_fwd_spec cfg s s'.

  Lemma typed_pos : (forall (m : module K) s s', typed m s s' -> 0 < numel s /\ 0 < numel s') /\
    (forall (ms : list (module K)) s s', typed_seq ms s s' -> 0 < numel s /\ 0 < numel s').
  Proof.
    apply typed_both.
    - intros l s s' (A & B & _); auto.
    - intros l s s' (A & B & _); auto.
    - auto.
    - intros ms c c' r _ [A B]. split; auto. numels. nia.
    - auto.
    - intros m ms s s1 s2 _ [A _] _ [_ B]. auto.
  Qed.
  Lemma typed_pos_m (m : module K) s s' : typed m s s' -> 0 < numel s /\ 0 < numel s'.
  Proof. apply typed_pos. Qed.
  Lemma typed_pos_s (ms : list (module K)) s s' : typed_seq ms s s' -> 0 < numel s /\ 0 < numel s'.
  Proof. apply typed_pos. Qed.

  Lemma cat_dim1 (x y : T) b c c' r : shape x = b :: c :: r -> shape y = b :: c' :: r ->
    exists z, cat n0 1 [x; y] = Ok z /\ wf z /\ shape z = b :: (c + c') :: r.
  Proof.
    intros S S'. unfold cat, rank, dim. cbn [forallb map]. rewrite S, S'.
    cbn [length nth set_nth shape_eqb]. cbn -[set_nth]. unfold shape_eqb.
    destruct list_eq_dec as [_|N]; [|exfalso; apply N; reflexivity]. cbn -[set_nth].
    eexists. split; [reflexivity|]. split; [apply wf_tab|]. cbn. now rewrite Nat.add_0_r.
  Qed.

  Section Fwd.
    Hypothesis BL : base_fwd.
    Hypothesis BP : base_pool_fwd.

    Lemma typed_forward :
      (forall m s s', typed m s s' -> forall b x st, 0 < b -> wf x -> shape x = b :: s ->
         exists y, fwd m x = Ok y /\ wf y /\ shape y = b :: s' /\ coh m (fst (forward m st x)) x) /\
      (forall ms s s', typed_seq ms s s' -> forall b x ks fm, 0 < b -> wf x -> shape x = b :: s ->
         exists y ks' out, seq_forward forward true ms ks x fm = (ks', fm ++ out, Ok y) /\ wf y /\ shape y = b :: s' /\
           coh_seq coh ms ks' (x :: out) x).
    Proof.
      apply typed_both.
      - intros l s s' Ty b x st Hb Wx Sx. destruct (BL l s s' Ty b x Hb Wx Sx) as (y & E & Wy & Sy).
        exists y. repeat split; auto.
      - intros cfg s s' Ty b x st Hb Wx Sx. destruct (BP cfg s s' Ty b x Hb Wx Sx) as (y & i & E & Wy & Sy).
        exists y. rewrite fwd_Pool, E. cbn. rewrite E. cbn. split; [|split; [|split]]; eauto.
      - intros ms s s' Ty IH b x st Hb Wx Sx.
        destruct (IH b x (st_kids st) [x] Hb Wx Sx) as (y & ks' & out & E & Wy & Sy & C).
        exists y. split; [|split; [|split]]; auto.
        + rewrite fwd_Seq, <- (seq_forward_pure true ms (st_kids st) [x]), E. reflexivity.
        + cbn [forward]. rewrite E. cbn. auto.
      - intros ms c c' r Ty IH b x st Hb Wx Sx.
        destruct (IH b x (st_kids (st_kid st)) [x] Hb Wx Sx) as (y & ks' & out & E & Wy & Sy & C).
        assert (F : fwd (Seq true ms) x = Ok y).
        { rewrite fwd_Seq, <- (seq_forward_pure true ms (st_kids (st_kid st)) [x]), E. reflexivity. }
        destruct (cat_dim1 x y b c c' r Sx Sy) as (z & Ez & Wz & Sz).
        exists z. split; [|split; [|split]]; auto.
        + rewrite fwd_Skip, F. exact Ez.
        + cbn [forward]. rewrite E. cbn. auto.
      - intros s Hs b x ks fm Hb Wx Sx. exists x, [], []. cbn. rewrite app_nil_r. split; [|split; [|split]]; eauto.
      - intros m ms s s1 s2 Tm IHm Ts IHs b x ks fm Hb Wx Sx. cbn [seq_forward].
        destruct (kid_split ks) as [k l].
        destruct (IHm b x k Hb Wx Sx) as (y & E & Wy & Sy & C). rewrite forward_eta, E.
        destruct (IHs b y l (hook_push true fm y) Hb Wy Sy) as (z & ks' & out & E' & Wz & Sz & C').
        rewrite E'. exists z, (fst (forward m k x) :: ks'), (y :: out).
        cbn [hook_push]. rewrite <- app_assoc. cbn. split; [|split; [|split]]; auto.
        exists (fst (forward m k x)), ks', (y :: out), y. auto.
    Qed.
    Lemma typed_fwd m s s' : typed m s s' -> forall b x, 0 < b -> wf x -> shape x = b :: s ->
      exists y, fwd m x = Ok y /\ wf y /\ shape y = b :: s'.
    Proof.
      intros Ty b x Hb Wx Sx. destruct (proj1 typed_forward m s s' Ty b x st0 Hb Wx Sx) as (y & ? & ? & ? & _); eauto.
    Qed.
    Lemma typed_coh m s s' : typed m s s' -> forall b x st, 0 < b -> wf x -> shape x = b :: s ->
      coh m (fst (forward m st x)) x.
    Proof.
      intros Ty b x st Hb Wx Sx. now destruct (proj1 typed_forward m s s' Ty b x st Hb Wx Sx) as (y & ? & ? & ? & ?).
    Qed.
    Lemma typed_fwd_y m s s' b x y : typed m s s' -> 0 < b -> wf x -> shape x = b :: s -> fwd m x = Ok y ->
      wf y /\ shape y = b :: s'.
    Proof. intros Ty Hb Wx Sx E. destruct (typed_fwd m s s' Ty b x Hb Wx Sx) as (z & F & ? & ?). assert (z = y) by congruence. subst. auto. Qed.
    Lemma typed_fwd_seq ms s s' : typed_seq ms s s' -> forall b x, 0 < b -> wf x -> shape x = b :: s ->
      exists y, fwd_seq ms x = Ok y /\ wf y /\ shape y = b :: s'.
    Proof.
      intros Ty b x Hb Wx Sx. destruct (proj2 typed_forward ms s s' Ty b x [] [] Hb Wx Sx) as (y & ks & out & E & ? & ? & ?).
      exists y. split; auto. now rewrite <- (seq_forward_pure true ms [] []), E.
    Qed.
  End Fwd.

  Lemma coh_seq_head c (ms : list (module K)) ks fm x : coh_seq c ms ks fm x -> exists r, fm = x :: r.
  Proof. destruct ms; cbn; [intros [_ [r ->]]; eauto|]. intros (? & ? & fm' & ? & _ & -> & _). eauto. Qed.

  (** reading the feature maps of a coherent state *)
  Lemma skipn_nth {A} (l : list A) k x r : skipn k l = x :: r -> nth_error l k = Some x /\ skipn (S k) l = r.
  Proof.
    revert l. induction k; intros l E.
    - destruct l; [discriminate|]. injection E as -> ->. auto.
    - destruct l; [discriminate|]. apply IHk. exact E.
  Qed.
  Lemma fmap2_ok (fm : list T) k x y r : skipn k fm = x :: y :: r -> fmap2 true fm k = Ok (x, y).
  Proof.
    intros E. destruct (skipn_nth _ _ _ _ E) as [A B]. destruct (skipn_nth _ _ _ _ B) as [C _].
    unfold fmap2, fmap_at. now rewrite A, C.
  Qed.
  Lemma st_eta (s : st K) : St (st_fm s) (st_idx s) (st_kids s) = s.
  Proof. now destruct s. Qed.

  (** *** lists of tensors concatenated on the last dimension *)
  Definition cats2 (b m : nat) (f : nat -> nat -> K) (vs : list T) : Prop :=
    Forall (fun t => exists w, shape t = [b; w]) vs /\
    fold_right Nat.add 0 (map (fun u => dim u 1) vs) = m /\
    forall q j j0, q < b -> j < m -> cat_pick n0 1 vs j [q; j0] = f q j.
  Lemma cats2_nil b f : cats2 b 0 f [].
  Proof. split; [constructor|]. split; auto. intros; lia. Qed.
  Lemma cats2_cons b w m t f vs : shape t = [b; w] -> cats2 b m f vs ->
    cats2 b (w + m) (fun q j => if j <? w then gt t [q; j] else f q (j - w)) (t :: vs).
  Proof.
    intros S (A & B & C). split; [constructor; eauto|]. assert (D : dim t 1 = w) by (unfold dim; now rewrite S).
    split; [cbn; now rewrite D, B|]. intros q j j0 Hq Hj. cbn [cat_pick]. rewrite D.
    destruct (Nat.ltb_spec j w); [reflexivity|]. apply C; lia.
  Qed.
  Lemma cats2_ext b m f g vs : (forall q j, q < b -> j < m -> f q j = g q j) -> cats2 b m f vs -> cats2 b m g vs.
  Proof. intros E (A & B & C). split; auto. split; auto. intros. rewrite <- E by auto. now apply C. Qed.
  Lemma cats2_cat b m f vs : vs <> [] -> cats2 b m f vs -> cat n0 1 vs = Ok (tab2 b m f).
  Proof.
    intros N (A & B & C). destruct vs as [|t vs]; [congruence|]. unfold cat. inversion A as [|? ? [w S] A']; subst.
    unfold rank. rewrite S. cbn [length Nat.ltb Nat.leb].
    replace (forallb _ _) with true.
    2:{ symmetry. apply forallb_forall. intros u Hu. apply shape_eqb_true.
        rewrite Forall_forall in A. destruct (A u Hu) as [w' ->]. reflexivity. }
    f_equal. apply tab_ext. intros idx V. didx idx V. apply C; auto.
  Qed.
  Definition cats3 (b r m : nat) (f : nat -> nat -> nat -> K) (vs : list T) : Prop :=
    Forall (fun t => exists w, shape t = [b; r; w]) vs /\
    fold_right Nat.add 0 (map (fun u => dim u 2) vs) = m /\
    forall q a j j0, q < b -> a < r -> j < m -> cat_pick n0 2 vs j [q; a; j0] = f q a j.
  Lemma cats3_nil b r f : cats3 b r 0 f [].
  Proof. split; [constructor|]. split; auto. intros; lia. Qed.
  Lemma cats3_cons b r w m t f vs : shape t = [b; r; w] -> cats3 b r m f vs ->
    cats3 b r (w + m) (fun q a j => if j <? w then gt t [q; a; j] else f q a (j - w)) (t :: vs).
  Proof.
    intros S (A & B & C). split; [constructor; eauto|]. assert (D : dim t 2 = w) by (unfold dim; now rewrite S).
    split; [cbn; now rewrite D, B|]. intros q a j j0 Hq Ha Hj. cbn [cat_pick]. rewrite D.
    destruct (Nat.ltb_spec j w); [reflexivity|]. apply C; lia.
  Qed.
  Lemma cats3_ext b r m f g vs : (forall q a j, q < b -> a < r -> j < m -> f q a j = g q a j) ->
    cats3 b r m f vs -> cats3 b r m g vs.
  Proof. intros E (A & B & C). split; auto. split; auto. intros. rewrite <- E by auto. now apply C. Qed.
  Lemma cats3_cat b r m f vs : vs <> [] -> cats3 b r m f vs -> cat n0 2 vs = Ok (tab3 b r m f).
  Proof.
    intros N (A & B & C). destruct vs as [|t vs]; [congruence|]. unfold cat. inversion A as [|? ? [w S] A']; subst.
    unfold rank. rewrite S. cbn [length Nat.ltb Nat.leb].
    replace (forallb _ _) with true.
    2:{ symmetry. apply forallb_forall. intros u Hu. apply shape_eqb_true.
        rewrite Forall_forall in A. destruct (A u Hu) as [w' ->]. reflexivity. }
    f_equal. apply tab_ext. intros idx V. didx idx V. apply C; auto.
  Qed.

  (** the number of parameters of a list of modules *)
  Definition seq_np (ms : list (module K)) : nat := fold_right (fun m n => n_params m + n) 0 ms.
End Base.
