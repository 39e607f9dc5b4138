(** One image without a batch dimension: proofs. *)
From Coq Require Import String Ascii List Arith ZArith Lia Bool.
From Verif Require Import Scalar Sums Tensor TensorLemmas Conv Abstract Simple LinearLayer ConvLayer PoolLayer Module Domain Jac Calls
  LeafSpec TreeBase Frozen ImgSpec.
Import ListNotations.
Local Open Scope nat_scope.
Local Open Scope list_scope.

Section Img.
  Context {K} `{CR : CRing K}.
  Notation T := (tensor K).

  Definition fails {A} (r : res A) : Prop := exists e, r = Raise e.
  Lemma fails_bind {A B} (r : res A) (f : A -> res B) : fails r -> fails (bind r f).
  Proof. intros [e ->]. exists e. reflexivity. Qed.
  Lemma fails_bind2 {A B} (r : res A) (f : A -> res B) : (forall a, r = Ok a -> fails (f a)) -> fails (bind r f).
  Proof. destruct r as [a|e]; intros F; [apply F; reflexivity|exists e; reflexivity]. Qed.
  Lemma fails_raise {A} e : fails (@Raise A e). Proof. now exists e. Qed.
  Lemma fails_check {A} b e (r : res A) : fails r -> fails (check b e r).
  Proof. unfold check. destruct b; auto. intros _. apply fails_raise. Qed.
  Lemma fails_unpack4 (x : T) : length (shape x) <> 4 -> fails (unpack4 x).
  Proof. unfold unpack4. intros N. destruct (shape x) as [|? [|? [|? [|? [|? ?]]]]]; try (eexists; reflexivity). now elim N. Qed.
  Ltac fl := repeat first [assumption | apply fails_raise | (apply fails_bind; now apply fails_unpack4) | apply fails_check |
    (apply fails_bind2; intros)].

  (** the layers *)
  Lemma leaf_fails (l : leaf K) x : on_images l = true -> length (shape x) <> 4 ->
    (forall val, fails (leaf_jacobian l x val Input)) /\ (forall val v, fails (leaf_vjp l x val v Input)) /\
    (forall val M, fails (leaf_mjp l x val M Input)) /\ (forall val M fd td db, fails (leaf_jTmjp l x val M Input fd td db)) /\
    (forall val v, fails (leaf_jvp l x val v Input)) /\ (forall val M, fails (leaf_jmp l x val M Input)) /\
    (forall val M fd td db, fails (leaf_jmjTp l x val M Input fd td db)).
  Proof.
    intros O N. destruct l as [| c W b | | | | | sn sd |]; try discriminate; cbn [leaf_jacobian leaf_vjp leaf_mjp leaf_jTmjp leaf_jvp leaf_jmp leaf_jmjTp].
    - assert (M : forall v M, fails (conv_mjp_some c W b x v M Input)) by (intros; unfold conv_mjp_some; fl).
      assert (J : forall val, fails (conv_jacobian c W b x val Input)).
      { intros val. unfold conv_jacobian. apply fails_bind2. intros v _. apply fails_bind2. intros [[[? ?] ?] ?] _. fl. }
      repeat split; intros.
      + apply J.
      + unfold conv_vjp. fl.
      + unfold conv_mjp. apply fails_bind2. intros v _. destruct M0; [apply M|apply J].
      + unfold conv_jTmjp. apply fails_bind2. intros v _. destruct (match M0 with Some m => _ | None => _ end) as [m [|]]; destruct td; unfold some.
        * apply fails_bind. unfold conv_jTmjp_in_dd. fl.
        * apply fails_bind. apply fails_bind2. intros d _. unfold conv_jTmjp_in_full. apply fails_bind, M.
        * apply fails_bind. apply fails_bind. unfold conv_jTmjp_in_full. apply fails_bind, M.
        * apply fails_bind. unfold conv_jTmjp_in_full. apply fails_bind, M.
      + apply fails_raise.
      + unfold conv_jmp. destruct M0; [apply fails_raise|apply J].
      + unfold conv_jmjTp. fl.
    - assert (J : forall val, fails (up_jacobian sn sd x val Input)) by (intros; unfold up_jacobian; fl).
      repeat split; intros.
      + apply J.
      + unfold up_vjp. fl.
      + unfold up_mjp. destruct M; [|apply J]. unfold some. apply fails_bind2. intros v _. apply fails_bind. unfold up_mjp_some. fl.
      + unfold up_jTmjp. fl.
      + apply fails_raise.
      + unfold up_jmp. destruct M; [apply fails_raise|apply J].
      + unfold up_jmjTp. fl.
  Qed.
  Lemma pool_fails cfg s (x : T) : length (shape x) <> 4 ->
    (forall val, fails (snd (maxpool_jacobian cfg s x val Input))) /\ (forall val v, fails (snd (vjp (MaxPool cfg) s x val v Input))) /\
    (forall val M, fails (snd (mjp (MaxPool cfg) s x val M Input))) /\ (forall val M fd td db, fails (snd (jTmjp (MaxPool cfg) s x val M Input fd td db))) /\
    (forall val v, fails (snd (jvp (MaxPool cfg) s x val v Input))) /\ (forall val M, fails (snd (jmp (MaxPool cfg) s x val M Input))) /\
    (forall val M fd td db, fails (snd (jmjTp (MaxPool cfg) s x val M Input fd td db))).
  Proof.
    intros N.
    assert (J : forall val, fails (snd (maxpool_jacobian cfg s x val Input))).
    { intros val. unfold maxpool_jacobian. destruct (ensure _ s x val) as [s' r]. cbn [snd]. unfold some. apply fails_bind2. intros. apply fails_bind. unfold pool_jacobian. fl. }
    repeat split; intros; auto; cbn [vjp mjp jTmjp jvp jmp jmjTp].
    - destruct (ensure _ s x val) as [s' r]. cbn [snd]. unfold some. apply fails_bind2. intros. apply fails_bind. unfold pool_vjp. fl.
    - destruct M; [|apply J]. destruct (ensure _ s x val) as [s' r]. cbn [snd]. unfold some. apply fails_bind2. intros. apply fails_bind. unfold pool_mjp. fl.
    - destruct (ensure _ s x val) as [s' r]. cbn [snd]. apply fails_bind2. intros. apply fails_bind2. intros. apply fails_bind. unfold pool_jTmjp. fl.
    - cbn [snd]. fl.
    - destruct M; [|apply J]. destruct (ensure _ s x val) as [s' r]. cbn [snd]. unfold some. apply fails_bind2. intros. apply fails_bind. unfold pool_jmp. fl.
    - destruct (ensure _ s x val) as [s' r]. cbn [snd]. apply fails_bind2. intros. apply fails_raise.
  Qed.

  (** *** the feature maps are those of the forward pass at x *)
  Fixpoint ready (m : module K) (s : st K) (x : T) : Prop :=
    match m with
    | Leaf _ | MaxPool _ => True
    | Seq h ms => h = true -> coh_seq ready ms (st_kids s) (st_fm s) x
    | Skip F => ready F (st_kid s) x
    end.
  Lemma forward_ready : forall (m : module K) s x s' y, forward m s x = (s', Ok y) -> ready m s' x.
  Proof.
    refine (module_ind2 (fun m => forall s x s' y, forward m s x = (s', Ok y) -> ready m s' x)
      (fun ms => forall ks x fm ks' fm' y, seq_forward forward true ms ks x fm = (ks', fm', Ok y) ->
         exists out, fm' = fm ++ out /\ coh_seq ready ms ks' (x :: out) x) _ _ _ _ _ _).
    - cbn; auto.
    - cbn; auto.
    - intros h ms IH s x s' y E Eh. subst h. cbn [forward] in E. destruct seq_forward as [[ks fm] r] eqn:F. injection E as <- ->.
      destruct (IH _ _ _ _ _ _ F) as (out & -> & C). exact C.
    - intros F IH s x s' y E. cbn [forward] in E. destruct (forward F (st_kid s) x) as [k r] eqn:G. injection E as <- E.
      destruct r as [z|]; [|discriminate]. exact (IH _ _ _ _ G).
    - intros ks x fm ks' fm' y E. cbn in E. injection E as <- <- <-. exists []. rewrite app_nil_r. cbn. eauto.
    - intros m ms IHm IHs ks x fm ks' fm' y E. cbn [seq_forward] in E. destruct (kid_split ks) as [k l].
      destruct (forward m k x) as [k1 r] eqn:G. destruct r as [z|]; [|discriminate].
      destruct seq_forward as [[ks1 fm1] r] eqn:F. injection E as <- <- ->. destruct (IHs _ _ _ _ _ _ F) as (out & -> & C).
      exists (z :: out). split; [cbn [hook_push]; now rewrite <- app_assoc|]. cbn [coh_seq].
      exists k1, ks1, (z :: out), z. repeat split; auto.
      + rewrite <- (forward_pure m k x), G. reflexivity.
      + exact (IHm _ _ _ _ G).
  Qed.
  Lemma ensure_ready (m : module K) s x val s' y : val = None \/ ready m s x -> ensure m s x val = (s', Ok y) -> ready m s' x.
  Proof.
    destruct val as [v|]; cbn [ensure]; intros R E.
    - injection E as <- _. destruct R as [[=]|R]. exact R.
    - eapply forward_ready, E.
  Qed.
  Lemma fmap2_at (m : module K) ms ks fma k x : coh_seq ready (m :: ms) ks (skipn k fma) x ->
    exists s ks' y, ks = s :: ks' /\ fwd m x = Ok y /\ ready m s x /\ fmap2 true fma k = Ok (x, y) /\ coh_seq ready ms ks' (skipn (S k) fma) y.
  Proof.
    intros (s & ks' & fm' & y & -> & E & F & R & C). exists s, ks', y. repeat split; auto.
    - destruct (coh_seq_head _ _ _ _ _ C) as [r ->]. now apply (fmap2_ok fma k x y r).
    - replace (skipn (S k) fma) with fm'; auto. clear -E. revert fma E. induction k; intros [|a fma] E; cbn in *; try discriminate.
      + now injection E.
      + apply IHk in E. destruct fma; cbn in *; auto.
  Qed.


  (** *** reverse products wrt input *)
  Lemma vjp_fails : forall (m : module K) s x val v, meets m x -> val = None \/ ready m s x -> fails (snd (vjp m s x val v Input)).
  Proof.
    refine (module_ind2 (fun m => forall s x val v, meets m x -> val = None \/ ready m s x -> fails (snd (vjp m s x val v Input)))
      (fun ms => forall h fma k ks x v, meets_seq meets ms x -> (h = true -> coh_seq ready ms ks (skipn k fma) x) ->
         fails (snd (seq_vjp_in vjp h fma ms ks k v))) _ _ _ _ _ _).
    - intros l s x val v [O N] _. apply (leaf_fails l x O N).
    - intros c s x val v N _. now apply pool_fails.
    - intros h ms IH s x val v M R. cbn [vjp wrt_ok]. destruct (ensure _ s x val) as [s' [y|e]] eqn:E; [|apply fails_raise].
      pose proof (ensure_ready _ _ _ _ _ _ R E) as R'. pose proof (IH h (st_fm s') 0 (st_kids s') x v M R') as G.
      destruct seq_vjp_in as [ks r]. cbn [snd] in *. unfold some. now apply fails_bind.
    - intros F IH s x val v M R. cbn [vjp]. destruct (bind (numel0 x) _) as [[[l t] vt]|e] eqn:E; [|apply fails_raise].
      assert (R' : t = None \/ ready F (st_kid s) x).
      { destruct R as [->|R]; auto. left. destruct (numel0 x) as [n|]; [|discriminate]. cbn [bind val_tail] in E. destruct (slice_from n0 1 n v); [|discriminate]. now injection E. }
      specialize (IH (st_kid s) x t vt M R'). destruct (vjp F (st_kid s) x t vt Input) as [k r]. cbn [snd] in *. now apply fails_bind.
    - intros h fma k ks x v [].
    - intros m ms IHm IHs h fma k ks x v M R. cbn [seq_vjp_in].
      assert (Q : h = false \/ exists s ks' y, ks = s :: ks' /\ fwd m x = Ok y /\ ready m s x /\ fmap2 h fma k = Ok (x, y) /\ coh_seq ready ms ks' (skipn (S k) fma) y).
      { destruct h; auto. right. apply (fmap2_at m ms). auto. }
      destruct Q as [->|(s & ks' & y & -> & F & Rm & Fm & Rs)].
      + destruct (kid_split ks) as [s ks']. destruct seq_vjp_in as [ks1 r1]. destruct r1 as [v1|]; cbn [bind]; [|apply fails_raise]. cbn. apply fails_raise.
      + cbn [kid_split]. destruct M as [M|(y' & F' & M)].
        * destruct seq_vjp_in as [ks1 r1]. destruct r1 as [v1|]; cbn [bind]; [|apply fails_raise]. rewrite Fm. cbn [bind].
          specialize (IHm s x (Some y) v1 M (or_intror Rm)). destruct (vjp m s x (Some y) v1 Input) as [s1 r]. cbn [snd] in *. now apply fails_bind.
        * assert (y' = y) by congruence. subst y'. specialize (IHs h fma (S k) ks' y v M (fun _ => Rs)). destruct seq_vjp_in as [ks1 r1]. cbn [snd] in IHs.
          destruct IHs as [e ->]. cbn [bind]. apply fails_raise.
  Qed.
  Lemma mjp_fails : forall (m : module K) s x val v, meets m x -> val = None \/ ready m s x -> fails (snd (mjp m s x val v Input)).
  Proof.
    refine (module_ind2 (fun m => forall s x val v, meets m x -> val = None \/ ready m s x -> fails (snd (mjp m s x val v Input)))
      (fun ms => forall h fma k ks x v, meets_seq meets ms x -> (h = true -> coh_seq ready ms ks (skipn k fma) x) ->
         fails (snd (seq_mjp_in mjp h fma ms ks k v))) _ _ _ _ _ _).
    - intros l s x val v [O N] _. apply (leaf_fails l x O N).
    - intros c s x val v N _. now apply pool_fails.
    - intros h ms IH s x val v M R. cbn [mjp wrt_ok]. destruct (ensure _ s x val) as [s' [y|e]] eqn:E; [|apply fails_raise].
      pose proof (ensure_ready _ _ _ _ _ _ R E) as R'. cbn [bind]. destruct (match v with Some mt => _ | None => _ end) as [mt|]; [|apply fails_raise].
      pose proof (IH h (st_fm s') 0 (st_kids s') x (Some mt) M R') as G. destruct seq_mjp_in as [ks r]. exact G.
    - intros F IH s x val v M R. cbn [mjp]. destruct v as [mt|].
      + destruct (bind (numel0 x) _) as [[[l t] vt]|e] eqn:E; [|apply fails_raise].
        assert (R' : t = None \/ ready F (st_kid s) x).
        { destruct R as [->|R]; auto. left. destruct (numel0 x) as [n|]; [|discriminate]. cbn [bind val_tail] in E. destruct (slice_from n0 2 n mt); [|discriminate]. now injection E. }
        specialize (IH (st_kid s) x t (Some vt) M R'). destruct (mjp F (st_kid s) x t (Some vt) Input) as [k r]. cbn [snd] in *. now apply fails_bind.
      + unfold skip_jacobian. specialize (IH (st_kid s) x val None M R). destruct (mjp F (st_kid s) x val None Input) as [k r]. cbn [snd] in IH.
        destruct IH as [e ->]. apply fails_raise.
    - intros h fma k ks x v [].
    - intros m ms IHm IHs h fma k ks x v M R. cbn [seq_mjp_in].
      assert (Q : h = false \/ exists s ks' y, ks = s :: ks' /\ fwd m x = Ok y /\ ready m s x /\ fmap2 h fma k = Ok (x, y) /\ coh_seq ready ms ks' (skipn (S k) fma) y).
      { destruct h; auto. right. apply (fmap2_at m ms). auto. }
      destruct Q as [->|(s & ks' & y & -> & F & Rm & Fm & Rs)].
      + destruct (kid_split ks) as [s ks']. destruct seq_mjp_in as [ks1 r1]. destruct r1 as [v1|]; cbn [bind]; [|apply fails_raise]. cbn. apply fails_raise.
      + cbn [kid_split]. destruct M as [M|(y' & F' & M)].
        * destruct seq_mjp_in as [ks1 r1]. destruct r1 as [v1|]; cbn [bind]; [|apply fails_raise]. rewrite Fm. cbn [bind].
          specialize (IHm s x (Some y) v1 M (or_intror Rm)). destruct (mjp m s x (Some y) v1 Input) as [s1 r]. exact IHm.
        * assert (y' = y) by congruence. subst y'. specialize (IHs h fma (S k) ks' y v M (fun _ => Rs)). destruct seq_mjp_in as [ks1 r1]. cbn [snd] in IHs.
          destruct IHs as [e ->]. cbn [bind]. apply fails_raise.
  Qed.
  Lemma jacobian_fails (m : module K) s x val : meets m x -> val = None \/ ready m s x -> fails (snd (jacobian m s x val Input)).
  Proof.
    intros M R. pose proof (mjp_fails m s x val None M R) as G. destruct m; auto. destruct M as [O N]. now apply leaf_fails.
  Qed.
  Lemma jTmjp_fails : forall (m : module K) s x val v fd td db, meets m x -> val = None \/ ready m s x -> fails (snd (jTmjp m s x val v Input fd td db)).
  Proof.
    refine (module_ind2 (fun m => forall s x val v fd td db, meets m x -> val = None \/ ready m s x -> fails (snd (jTmjp m s x val v Input fd td db)))
      (fun ms => forall h fma k ks x v fd td db, meets_seq meets ms x -> (h = true -> coh_seq ready ms ks (skipn k fma) x) ->
         fails (snd (seq_jTmjp_in jTmjp h fma ms ks k v fd td db))) _ _ _ _ _ _).
    - intros l s x val v fd td db [O N] _. cbn [jTmjp snd]. apply fails_bind2. intros mt _. apply fails_bind. now apply leaf_fails.
    - intros c s x val v fd td db N _. now apply pool_fails.
    - intros h ms IH s x val v fd td db M R. cbn [jTmjp]. destruct (db_ok fd td db); [|apply fails_raise].
      destruct (ensure _ s x val) as [s' [y|e]] eqn:E; [|apply fails_raise].
      pose proof (ensure_ready _ _ _ _ _ _ R E) as R'. cbn [bind]. match goal with |- context [match ?q with Ok _ => _ | Raise _ => _ end] => destruct q as [[mt fd']|] end; [|apply fails_raise].
      pose proof (IH h (st_fm s') 0 (st_kids s') x mt fd' td db M R') as G. destruct seq_jTmjp_in as [ks r]. cbn [snd] in *. now apply fails_bind.
    - intros F IH s x val v fd td db M R. cbn [jTmjp]. destruct (db_ok fd td db); [|apply fails_raise].
      destruct (ensure _ s x val) as [s' [y|e]] eqn:E; [|apply fails_raise].
      pose proof (ensure_ready _ _ _ _ _ _ R E) as R'. destruct (bind (Ok y) _) as [[[[[mt fd'] l] t] sub]|e]; [|apply fails_raise].
      specialize (IH (st_kid s') x (Some t) (VT sub) fd' td db M (or_intror R')).
      destruct (jTmjp F (st_kid s') x (Some t) (VT sub) Input fd' td db) as [k r]. cbn [snd] in *. destruct IH as [e ->]. apply fails_raise.
    - intros h fma k ks x v fd td db [].
    - intros m ms IHm IHs h fma k ks x v fd td db M R. cbn [seq_jTmjp_in].
      assert (Q : h = false \/ exists s ks' y, ks = s :: ks' /\ fwd m x = Ok y /\ ready m s x /\ fmap2 h fma k = Ok (x, y) /\ coh_seq ready ms ks' (skipn (S k) fma) y).
      { destruct h; auto. right. apply (fmap2_at m ms). auto. }
      destruct Q as [->|(s & ks' & y & -> & F & Rm & Fm & Rs)].
      + destruct (kid_split ks) as [s ks']. destruct seq_jTmjp_in as [ks1 r1]. destruct r1 as [v1|]; cbn [bind]; [|apply fails_raise]. cbn. apply fails_raise.
      + cbn [kid_split]. destruct M as [M|(y' & F' & M)].
        * destruct seq_jTmjp_in as [ks1 r1]. destruct r1 as [v1|]; cbn [bind]; [|apply fails_raise]. rewrite Fm. cbn [bind].
          match goal with |- context [jTmjp m s x (Some y) v1 Input ?a ?b db] => specialize (IHm s x (Some y) v1 a b db M (or_intror Rm)); destruct (jTmjp m s x (Some y) v1 Input a b db) as [s1 r] end. exact IHm.
        * assert (y' = y) by congruence. subst y'. specialize (IHs h fma (S k) ks' y v fd td db M (fun _ => Rs)). destruct seq_jTmjp_in as [ks1 r1]. cbn [snd] in IHs.
          destruct IHs as [e ->]. cbn [bind]. apply fails_raise.
  Qed.

  (** *** forward products wrt input *)
  Lemma jvp_fails : forall (m : module K) s x val v, meets m x -> fails (snd (jvp m s x val v Input)).
  Proof.
    refine (module_ind2 (fun m => forall s x val v, meets m x -> fails (snd (jvp m s x val v Input)))
      (fun ms => forall h fm ks x v, meets_seq meets ms x -> fails (snd (seq_jvp_in jvp h ms ks x fm v))) _ _ _ _ _ _).
    - intros l s x val v [O N]. apply (leaf_fails l x O N).
    - intros c s x val v N. now apply pool_fails.
    - intros h ms IH s x val v M. cbn [jvp]. specialize (IH h (st_fm s) (st_kids s) x v M). destruct seq_jvp_in as [[ks fm] r]. cbn [snd] in *. unfold some. now apply fails_bind.
    - intros F IH s x val v M. cbn [jvp]. destruct (bind (size 0 x) _) as [[[b l] t]|e]; [|apply fails_raise].
      specialize (IH (st_kid s) x t v M). destruct (jvp F (st_kid s) x t v Input) as [k r]. cbn [snd] in *. now apply fails_bind.
    - intros h fm ks x v [].
    - intros m ms IHm IHs h fm ks x v M. cbn [seq_jvp_in]. destruct (kid_split ks) as [k l]. rewrite (forward_eta m k x).
      destruct (fwd m x) as [y|e] eqn:F; [|apply fails_raise]. set (k1 := fst (forward m k x)). pose proof (IHm k1 x (Some y) v) as G.
      destruct (jvp m k1 x (Some y) v Input) as [k2 r]. cbn [snd] in G. destruct (bind r need) as [v1|e] eqn:E; [|apply fails_raise].
      destruct M as [M|(y' & F' & M)].
      + destruct (G M) as [e ->]. discriminate.
      + assert (y' = y) by congruence. subst y'. specialize (IHs h (hook_push h fm y) l y v1 M). destruct seq_jvp_in as [[ks1 fm1] r1]. exact IHs.
  Qed.
  Lemma jmp_fails : forall (m : module K) s x val v, meets m x -> val = None \/ ready m s x -> fails (snd (jmp m s x val v Input)).
  Proof.
    refine (module_ind2 (fun m => forall s x val v, meets m x -> val = None \/ ready m s x -> fails (snd (jmp m s x val v Input)))
      (fun ms => forall h fm ks x v, meets_seq meets ms x -> fails (snd (seq_jmp_in jmp h ms ks x fm v))) _ _ _ _ _ _).
    - intros l s x val v [O N] _. apply (leaf_fails l x O N).
    - intros c s x val v N _. now apply pool_fails.
    - intros h ms IH s x val v M R. cbn [jmp wrt_ok]. destruct v as [mt|]; [|now apply jacobian_fails].
      specialize (IH h (st_fm s) (st_kids s) x (Some mt) M). destruct seq_jmp_in as [[ks fm] r]. exact IH.
    - intros F IH s x val v M R. cbn [jmp]. destruct v as [mt|]; [|now apply jacobian_fails].
      destruct (bind (size 0 x) _) as [[[b l] t]|e] eqn:E; [|apply fails_raise].
      assert (R' : t = None \/ ready F (st_kid s) x).
      { destruct R as [->|R]; auto. left. destruct (size 0 x) as [b0|]; [|discriminate]. cbn [bind] in E. destruct (numel0 x) as [n|]; [|discriminate]. cbn [bind val_tail] in E. now injection E. }
      specialize (IH (st_kid s) x t (Some mt) M R'). destruct (jmp F (st_kid s) x t (Some mt) Input) as [k r]. cbn [snd] in *. now apply fails_bind.
    - intros h fm ks x v [].
    - intros m ms IHm IHs h fm ks x v M. cbn [seq_jmp_in]. destruct (kid_split ks) as [k l]. 
      pose proof (forward_pure m k x) as P. destruct (forward m k x) as [k1 [y|e]] eqn:F0; [|apply fails_raise]. cbn [snd] in P. symmetry in P.
      pose proof (fun M => IHm k1 x (Some y) v M (or_intror (forward_ready _ _ _ _ _ F0))) as G.
      destruct (jmp m k1 x (Some y) v Input) as [k2 r]. cbn [snd] in G. destruct r as [v1|e]; [|apply fails_raise].
      destruct M as [M|(y' & F' & M)].
      + destruct (G M) as [e G']. discriminate.
      + assert (y' = y) by congruence. subst y'. specialize (IHs h (hook_push h fm y) l y v1 M). destruct seq_jmp_in as [[ks1 fm1] r1]. exact IHs.
  Qed.
  Lemma jmjTp_fails : forall (m : module K) s x val v fd td db, meets m x -> val = None \/ ready m s x -> fails (snd (jmjTp m s x val v Input fd td db)).
  Proof.
    refine (module_ind2 (fun m => forall s x val v fd td db, meets m x -> val = None \/ ready m s x -> fails (snd (jmjTp m s x val v Input fd td db)))
      (fun ms => forall h fma k ks x v fd td db, meets_seq meets ms x -> (h = true -> coh_seq ready ms ks (skipn k fma) x) ->
         fails (snd (seq_jmjTp_in jmjTp h fma ms ks k v fd td db))) _ _ _ _ _ _).
    - intros l s x val v fd td db [O N] _. cbn [jmjTp snd]. apply fails_bind2. intros mt _. apply fails_bind. now apply leaf_fails.
    - intros c s x val v fd td db N _. now apply pool_fails.
    - intros h ms IH s x val v fd td db M R. cbn [jmjTp]. destruct (db_ok fd td db); [|apply fails_raise].
      destruct (ensure _ s x val) as [s' [y|e]] eqn:E; [|apply fails_raise].
      pose proof (ensure_ready _ _ _ _ _ _ R E) as R'. destruct (match v with VNone => _ | _ => _ end) as [mt fd'].
      pose proof (IH h (st_fm s') 0 (st_kids s') x mt fd' td db M R') as G. destruct seq_jmjTp_in as [ks r]. exact G.
    - intros F IH s x val v fd td db M R. cbn [jmjTp]. destruct (db_ok fd td db); [|apply fails_raise].
      destruct (ensure _ s x val) as [s' [y|e]] eqn:E; [|apply fails_raise].
      pose proof (ensure_ready _ _ _ _ _ _ R E) as R'. destruct (bind (Ok y) _) as [[[[b l1] l2] t]|e]; [|apply fails_raise].
      specialize (IH (st_kid s') x (Some t) v fd td db M (or_intror R')).
      destruct (jmjTp F (st_kid s') x (Some t) v Input fd td db) as [k r]. cbn [snd] in *. destruct IH as [e ->]. apply fails_raise.
    - intros h fma k ks x v fd td db [].
    - intros m ms IHm IHs h fma k ks x v fd td db M R. cbn [seq_jmjTp_in].
      assert (Q : h = false \/ exists s ks' y, ks = s :: ks' /\ fwd m x = Ok y /\ ready m s x /\ fmap2 h fma k = Ok (x, y) /\ coh_seq ready ms ks' (skipn (S k) fma) y).
      { destruct h; auto. right. apply (fmap2_at m ms). auto. }
      destruct Q as [->|(s & ks' & y & -> & F & Rm & Fm & Rs)].
      + destruct (kid_split ks) as [s ks']. cbn. apply fails_raise.
      + cbn [kid_split]. rewrite Fm. match goal with |- context [jmjTp m s x (Some y) v Input ?a ?b db] => pose proof (fun M => IHm s x (Some y) v a b db M (or_intror Rm)) as G; destruct (jmjTp m s x (Some y) v Input a b db) as [s1 r] end.
        cbn [snd] in G. destruct r as [v1|e]; [|apply fails_raise]. destruct M as [M|(y' & F' & M)].
        * destruct (G M) as [e G']. discriminate.
        * assert (y' = y) by congruence. subst y'. specialize (IHs h fma (S k) ks' y v1 fd td db M (fun _ => Rs)). destruct seq_jmjTp_in as [ks1 r1]. exact IHs.
  Qed.
  Lemma input_fails (m : module K) h x c : meets m x -> is_product c -> point c = x -> given_val c = None -> wrt_of c = Input -> exists e, answer m h c = Raise e.
  Proof.
    intros M P <- V W. unfold answer. destruct c; cbn [is_product point given_val wrt_of] in *; try contradiction; subst; cbn [perform opt_result snd].
    - apply fails_bind, jacobian_fails; auto.
    - apply fails_bind, jvp_fails; auto.
    - apply fails_bind, jmp_fails; auto.
    - apply jmjTp_fails; auto.
    - apply fails_bind, vjp_fails; auto.
    - apply fails_bind, mjp_fails; auto.
    - apply jTmjp_fails; auto.
  Qed.
End Img.
