(** Forward products of networks with layers that do not implement them never return a value (C50). *)
From Coq Require Import List Arith Lia Bool.
From Verif Require Import Scalar Sums Tensor TensorLemmas Conv Abstract Simple LinearLayer ConvLayer PoolLayer Module Spec SpecQ Domain OpLemmas Jac TreeBase TreeVjp TreeMjp Trees Nest NonParam LoudSpec.
Import ListNotations.
Local Open Scope nat_scope.
Local Open Scope list_scope.

(** follow a call that returned through its binds *)
Ltac crush E := repeat (cbn [bind] in E; match type of E with
  | bind ?r _ = Ok _ => destruct r as [?|?] eqn:?; [|discriminate E]
  | (if ?c then _ else _) = Ok _ => destruct c
  | (match ?c with _ => _ end) = Ok _ => destruct c eqn:?
  end); try discriminate E.

Ltac crushall E := crush E; repeat match goal with H : bind _ _ = Ok _ |- _ => progress (crush H) end.

Section Loud.
  Context {K} `{NK : Num K}.
  Notation T := (tensor K).
  Notation md := (module K).

  Lemma raises_not {A B} (r : A * res B) : (forall t, snd r <> Ok t) -> raises r.
  Proof. unfold raises. destruct (snd r); eauto. intros H. now destruct (H a). Qed.
  Lemma raises_no {A B} (r : A * res B) t : raises r -> snd r <> Ok t.
  Proof. intros [e ->]. discriminate. Qed.

  (** a Sequential only returns if each of its modules has *)
  Lemma seq_jvp_in_all f hk ms : forall ks (x : T) fm v t, snd (seq_jvp_in f hk ms ks x fm v) = Ok t ->
    forall m, In m ms -> exists k x' y' v' t', snd (f m k x' y' v' Input) = Ok t'.
  Proof.
    induction ms as [|m ms IH]; intros ks x fm v t E m' I; [easy|]. cbn [seq_jvp_in] in E. destruct (kid_split ks) as [k ks0].
    destruct (forward m k x) as [k1 [y|e]]; [|discriminate E]. destruct (f m k1 x (Some y) v Input) as [k2 r] eqn:F.
    destruct (r <- r ;; need r) as [v1|] eqn:R; [|discriminate E]. destruct (seq_jvp_in _ _ ms _ _ _ _) as [[? ?] ?] eqn:Q.
    destruct I as [->|I]; [|eapply IH; [rewrite Q; exact E|exact I]].
    destruct r as [r|]; [|discriminate R]. exists k1, x, (Some y), v, r. now rewrite F.
  Qed.
  Lemma seq_jvp_w_all f hk ms : forall ks (x : T) fm v p acc t, snd (seq_jvp_w f hk ms ks x fm v p acc) = Ok t ->
    forall m, In m ms -> exists k x' y' v' t', snd (f m k x' y' v' Weight) = Ok t'.
  Proof.
    induction ms as [|m ms IH]; intros ks x fm v p acc t E m' I; [easy|]. cbn [seq_jvp_w] in E. destruct (kid_split ks) as [k ks0].
    destruct (forward m k x) as [k1 [y|e]]; [|discriminate E].
    destruct (match acc with None => _ | Some _ => _ end) as [k2 r].
    destruct (acc <- r ;; vp <- _ ;; Ok (acc, vp)) as [[acc1 vp]|]; [|discriminate E].
    destruct (f m k2 x (Some y) vp Weight) as [k3 r3] eqn:F.
    destruct (new <- r3 ;; _) as [acc2|] eqn:R; [|discriminate E]. destruct (seq_jvp_w _ _ ms _ _ _ _ _ _) as [[? ?] ?] eqn:Q.
    destruct I as [->|I]; [|eapply IH; [rewrite Q; exact E|exact I]].
    destruct r3 as [r3|]; [|discriminate R]. exists k2, x, (Some y), vp, r3. now rewrite F.
  Qed.
  Lemma seq_jmp_in_all f hk ms : forall ks (x : T) fm v t, snd (seq_jmp_in f hk ms ks x fm (Some v)) = Ok t ->
    (forall m, In m ms -> forall k x y v, snd (f m k x y (Some v) Input) <> Ok None) ->
    forall m, In m ms -> exists k x' y' v' t', snd (f m k x' y' (Some v') Input) = Ok t'.
  Proof.
    induction ms as [|m ms IH]; intros ks x fm v t E NN m' I; [easy|]. cbn [seq_jmp_in] in E. destruct (kid_split ks) as [k ks0].
    destruct (forward m k x) as [k1 [y|e]]; [|discriminate E]. destruct (f m k1 x (Some y) (Some v) Input) as [k2 [v1|]] eqn:F; [|discriminate E].
    destruct v1 as [v1|]; [|destruct (NN m (or_introl eq_refl) k1 x (Some y) v); now rewrite F].
    destruct (seq_jmp_in _ _ ms _ _ _ _) as [[? ?] ?] eqn:Q.
    destruct I as [->|I]; [|eapply IH; [rewrite Q; exact E| |exact I]; intros; apply NN; now right].
    exists k1, x, (Some y), v, (Some v1). now rewrite F.
  Qed.
  Lemma seq_jmp_w_all f hk ms : forall ks (x : T) fm v p acc t, snd (seq_jmp_w f hk ms ks x fm v p acc) = Ok t ->
    forall m, In m ms -> exists k x' y' v' t', snd (f m k x' y' (Some v') Weight) = Ok t'.
  Proof.
    induction ms as [|m ms IH]; intros ks x fm v p acc t E m' I; [easy|]. cbn [seq_jmp_w] in E. destruct (kid_split ks) as [k ks0].
    destruct (forward m k x) as [k1 [y|e]]; [|discriminate E].
    destruct (match acc with None => _ | Some _ => _ end) as [k2 r].
    destruct (acc <- r ;; vp <- _ ;; _) as [[acc1 vp]|]; [|discriminate E].
    destruct (f m k2 x (Some y) (Some vp) Weight) as [k3 r3] eqn:F.
    destruct (new <- r3 ;; _) as [acc2|] eqn:R; [|discriminate E]. destruct (seq_jmp_w _ _ ms _ _ _ _ _ _) as [[? ?] ?] eqn:Q.
    destruct I as [->|I]; [|eapply IH; [rewrite Q; exact E|exact I]].
    destruct r3 as [r3|]; [|discriminate R]. exists k2, x, (Some y), vp, r3. now rewrite F.
  Qed.
  Lemma seq_jmjTp_in_all f hk fm ms : forall ks k v fd td db t, snd (seq_jmjTp_in f hk fm ms ks k v fd td db) = Ok t ->
    forall m, In m ms -> exists k (x : T) y v fd td db t', snd (f m k x y v Input fd td db) = Ok t'.
  Proof.
    induction ms as [|m ms IH]; intros ks k v fd td db t E m' I; [easy|]. cbn [seq_jmjTp_in] in E. destruct (kid_split ks) as [k0 ks0].
    destruct (fmap2 hk fm k) as [[x y]|]; [|discriminate E].
    destruct (f m k0 x (Some y) v Input _ _ db) as [k1 [v1|]] eqn:F; [|discriminate E]. destruct (seq_jmjTp_in _ _ _ ms _ _ _ _ _ _) as [? ?] eqn:Q.
    destruct I as [->|I]; [|eapply IH; [rewrite Q; exact E|exact I]].
    do 8 eexists. rewrite F. reflexivity.
  Qed.
  Lemma seq_jmjTp_w_all f hk fm ms : forall ks k bs acc fd td db t, snd (seq_jmjTp_w f hk fm ms ks k bs acc fd td db) = Ok t ->
    forall m, In m ms -> n_params m <> 0 -> exists k (x : T) y v fd td db t', snd (f m k x y v Weight fd td db) = Ok t'.
  Proof.
    induction ms as [|m ms IH]; intros ks k bs acc fd td db t E m' I N'; [easy|]. cbn [seq_jmjTp_w] in E. destruct (kid_split ks) as [k0 ks0].
    destruct (match acc with VNone => _ | _ => _ end) as [k1 [acc1|]]; [|discriminate E].
    destruct (Nat.eqb_spec (n_params m) 0) as [Z|Z].
    - destruct (seq_jmjTp_w _ _ _ ms _ _ _ _ _ _ _) as [? ?] eqn:Q. destruct I as [->|I]; [contradiction|]. eapply IH; [rewrite Q; exact E|exact I|exact N'].
    - destruct (p <- fmap2 hk fm k ;; _) as [[[[x y] b] bs']|]; [|discriminate E].
      destruct (f m k1 x (Some y) b Weight fd _ db) as [k2 r2] eqn:F.
      destruct (new <- r2 ;; _) as [acc2|] eqn:R; [|discriminate E]. destruct (seq_jmjTp_w _ _ _ ms _ _ _ _ _ _ _) as [? ?] eqn:Q.
      destruct I as [->|I]; [|eapply IH; [rewrite Q; exact E|exact I|exact N']].
      destruct r2 as [r2|]; [|discriminate R]. do 8 eexists. rewrite F. reflexivity.
  Qed.

  Definition tensor_jacs (m : md) : Prop := forall c, occurs (Leaf (Custom c)) m -> forall x val, cu_jacobian c x val Input <> Ok None.

  (** containers pass the failure on *)
  Lemma jvp_up w p m : w <> Other -> occurs p m -> (forall h x val v t, snd (jvp p h x val v w) <> Ok t) -> forall h (x : T) val v t, snd (jvp m h x val v w) <> Ok t.
  Proof.
    intros Hw O P. induction O as [|hk ms m I O IH|F O IH]; auto.
    - intros h x val v t E. cbn [jvp] in E. destruct w; [| |now apply Hw].
      + destruct (seq_jvp_in _ _ _ _ _ _ _) as [[? ?] r] eqn:Q. cbn [snd] in E. destruct r as [r|]; [|discriminate E].
        destruct (seq_jvp_in_all jvp hk ms _ _ _ _ r ltac:(now rewrite Q) m I) as (? & ? & ? & ? & ? & X). now apply IH in X.
      + destruct (seq_jvp_w _ _ _ _ _ _ _ _ _) as [[? ?] r] eqn:Q. cbn [snd] in E.
        destruct (seq_jvp_w_all jvp hk ms _ _ _ _ _ _ t ltac:(now rewrite Q) m I) as (? & ? & ? & ? & ? & X). now apply IH in X.
    - intros h x val v t E. cbn [jvp] in E. destruct (b <- size 0 x ;; _) as [[[b l] tl]|]; [|discriminate E].
      specialize (IH (st_kid h) x tl v). destruct (jvp F _ x tl v w) as [k [r|]]; [|discriminate E]. now apply (IH r).
  Qed.
  Lemma jmp_up p m : (forall h x val v t, snd (jmp p h x val (Some v) Weight) <> Ok t) -> occurs p m ->
    forall h (x : T) val v t, snd (jmp m h x val (Some v) Weight) <> Ok t.
  Proof.
    intros P O. induction O as [|hk ms m I O IH|F O IH]; auto.
    - intros h x val v t E. cbn [jmp wrt_ok] in E. destruct (seq_jmp_w _ _ _ _ _ _ _ _ _) as [[? ?] r] eqn:Q. cbn [snd] in E.
      destruct (seq_jmp_w_all jmp hk ms _ _ _ _ _ _ t ltac:(now rewrite Q) m I) as (? & ? & ? & ? & ? & X). now apply IH in X.
    - intros h x val v t E. cbn [jmp] in E. destruct (b <- size 0 x ;; _) as [[[b l] tl]|]; [|discriminate E].
      specialize (IH (st_kid h) x tl v). destruct (jmp F _ x tl (Some v) Weight) as [k [r|]]; [|discriminate E]. now apply (IH r).
  Qed.

  Lemma some_nn {A} (r : res A) : some r <> Ok None.
  Proof. destruct r; discriminate. Qed.
  Lemma leaf_jmp_nn (l : leaf K) x val v : (forall c, l = Custom c -> forall x val, cu_jacobian c x val Input <> Ok None) -> leaf_jmp l x val (Some v) Input <> Ok None.
  Proof.
    intros C E. destruct l; cbn [leaf_jmp] in E.
    - exact (some_nn _ E).
    - discriminate E.
    - unfold ad_jmp in E. destruct (act_jacobian a x val Input true) as [[j|]|e] eqn:A; [exact (some_nn _ E)| |discriminate E].
      unfold act_jacobian in A. crush A.
    - discriminate E.
    - discriminate E.
    - unfold aj_jmp in E. destruct (l2_jacobian eps x val Input) as [[j|]|e] eqn:A; [exact (some_nn _ E)| |discriminate E].
      unfold l2_jacobian in A. crush A. exact (some_nn _ A).
    - discriminate E.
    - unfold aj_jmp in E. pose proof (C c eq_refl x val) as C'. destruct (cu_jacobian c x val Input) as [[j|]|e]; [exact (some_nn _ E)|congruence|discriminate E].
  Qed.
  Lemma jmp_nn : forall m : md, tensor_jacs m -> forall h x val v, snd (jmp m h x val (Some v) Input) <> Ok None.
  Proof.
    pose (P := fun m : md => tensor_jacs m -> forall h x val v, snd (jmp m h x val (Some v) Input) <> Ok None). change (forall m, P m).
    apply (module_ind2 P (Forall P)); [| | | |now constructor|now constructor]; unfold P; clear P.
    - intros l C h x val v. cbn [jmp snd]. apply leaf_jmp_nn. intros c ->. apply C. constructor.
    - intros cfg C h x val v E. cbn [jmp] in E. destruct (ensure _ _ _ _) as [s r]. cbn [snd] in E. destruct r; [|discriminate E]. exact (some_nn _ E).
    - intros hk ms IH C h x val v E. cbn [jmp wrt_ok] in E.
      assert (Q : forall ks x fm v, snd (seq_jmp_in jmp hk ms ks x fm (Some v)) <> Ok None).
      { assert (C' : forall m, In m ms -> tensor_jacs m) by (intros m I c O; apply C; econstructor; eauto). clear C E h x val v.
        induction IH as [|m ms Hm _ IHs]; intros ks x fm v E; [discriminate E|]. cbn [seq_jmp_in] in E. destruct (kid_split ks) as [k ks0].
        destruct (forward m k x) as [k1 [y|]]; [|discriminate E]. pose proof (Hm (C' m (or_introl eq_refl)) k1 x (Some y) v) as A.
        destruct (jmp m k1 x (Some y) (Some v) Input) as [k2 [[v1|]|]]; [|now apply A|discriminate E].
        specialize (IHs (fun m I => C' m (or_intror I)) ks0 y (hook_push hk fm y) v1). destruct (seq_jmp_in _ _ ms _ _ _ _) as [[? ?] ?]. now apply IHs. }
      specialize (Q (st_kids h) x (st_fm h) v). destruct (seq_jmp_in _ _ _ _ _ _ _) as [[? ?] ?]. now apply Q.
    - intros F IH C h x val v E. cbn [jmp] in E. destruct (b <- size 0 x ;; _) as [[[b l] tl]|]; [|discriminate E].
      destruct (jmp F _ x tl (Some v) Input) as [k [r|]]; [|discriminate E]. cbn [bind snd] in E. destruct r as [r|]; [|discriminate E]. exact (some_nn _ E).
  Qed.
  Lemma jmp_in_up p m : (forall h x val v t, snd (jmp p h x val (Some v) Input) <> Ok t) -> tensor_jacs m -> occurs p m ->
    forall h (x : T) val v t, snd (jmp m h x val (Some v) Input) <> Ok t.
  Proof.
    intros P C O. induction O as [|hk ms m I O IH|F O IH]; auto.
    - intros h x val v t E. cbn [jmp wrt_ok] in E. destruct (seq_jmp_in _ _ _ _ _ _ _) as [[? ?] r] eqn:Q. cbn [snd] in E.
      destruct (seq_jmp_in_all jmp hk ms _ _ _ _ t ltac:(now rewrite Q)) with (m := m) as (? & ? & ? & ? & ? & X); auto.
      + intros m' I' k x' y' v'. apply jmp_nn. intros c O'. apply C. econstructor; eauto.
      + revert X. apply IH. intros c O'. apply C. econstructor; eauto.
    - intros h x val v t E. cbn [jmp] in E. destruct (b <- size 0 x ;; _) as [[[b l] tl]|]; [|discriminate E].
      assert (C' : tensor_jacs F) by (intros c O'; apply C; now constructor).
      specialize (IH C' (st_kid h) x tl v). destruct (jmp F _ x tl (Some v) Input) as [k [r|]]; [|discriminate E]. now apply (IH r).
  Qed.
  Lemma occurs_np (p m : md) : occurs p m -> n_params p <= n_params m.
  Proof.
    intros O. induction O as [|hk ms m I O IH|F O IH]; auto. cbn [n_params]. apply (Nat.le_trans _ _ _ IH). clear IH O.
    induction ms as [|m' ms IH]; [easy|]. cbn. destruct I as [->|I]; [lia|]. specialize (IH I). lia.
  Qed.
  Lemma jmjTp_up w p m : w <> Other -> (w = Weight -> n_params p <> 0) -> (forall h x val v fd td db t, snd (jmjTp p h x val v w fd td db) <> Ok t) -> occurs p m ->
    forall h (x : T) val v fd td db t, snd (jmjTp m h x val v w fd td db) <> Ok t.
  Proof.
    intros Hw Np P O. induction O as [|hk ms m I O IH|F O IH]; auto.
    - intros h x val v fd td db t E. cbn [jmjTp] in E. destruct (db_ok fd td db); [|discriminate E]. destruct (ensure _ _ _ _) as [s [y|]]; [|discriminate E].
      destruct w; [| |now apply Hw].
      + destruct (match v with VNone => _ | _ => _ end) as [mt fd'].
        destruct (seq_jmjTp_in _ _ _ _ _ _ _ _ _ _) as [ks r] eqn:Q. cbn [snd] in E.
        destruct (seq_jmjTp_in_all jmjTp hk _ ms _ _ _ _ _ _ t ltac:(now rewrite Q) m I) as (? & ? & ? & ? & ? & ? & ? & ? & X). now apply IH in X.
      + destruct (bind _ _) as [[bs fd']|]; [|discriminate E].
        destruct (seq_jmjTp_w _ _ _ _ _ _ _ _ _ _ _) as [ks r] eqn:Q. cbn [snd] in E.
        pose proof (occurs_np p m O). specialize (Np eq_refl).
        destruct (seq_jmjTp_w_all jmjTp hk _ ms _ _ _ _ _ _ _ t ltac:(now rewrite Q) m I ltac:(lia)) as (? & ? & ? & ? & ? & ? & ? & ? & X). now apply IH in X.
    - intros h x val v fd td db t E. cbn [jmjTp] in E. destruct (db_ok fd td db); [|discriminate E]. destruct (ensure _ _ _ _) as [s r].
      destruct (bind r _) as [[[[b l1] l2] tl]|]; [|discriminate E].
      specialize (IH (st_kid s) x (Some tl) v fd td db). destruct (jmjTp F _ x (Some tl) v w fd td db) as [k [j|]]; [|discriminate E]. now apply (IH j).
  Qed.

  Lemma loud_jvp_input p (m : md) : occurs p m -> is_conv p \/ is_upsample p \/ is_pool p -> forall h x val v, raises (jvp m h x val v Input).
  Proof.
    intros O P h x val v. apply raises_not. apply (jvp_up Input p m); try easy. clear h x val v. intros h x val v t.
    destruct p as [[]|c|hk ms|F]; cbn in P |- *; try tauto; discriminate.
  Qed.
  Lemma loud_jvp_weight p (m : md) : occurs p m -> is_conv p -> forall h x val v, raises (jvp m h x val v Weight).
  Proof.
    intros O P h x val v. apply raises_not. apply (jvp_up Weight p m); try easy. clear h x val v. intros h x val v t.
    destruct p as [[]|c|hk ms|F]; cbn in P |- *; try tauto; discriminate.
  Qed.
  Lemma loud_jmp_input p (m : md) : tensor_jacs m -> occurs p m -> is_conv p \/ is_upsample p -> forall h x val v, raises (jmp m h x val (Some v) Input).
  Proof.
    intros C O P h x val v. apply raises_not. apply (jmp_in_up p m); auto. clear h x val v. intros h x val v t.
    destruct p as [[]|c|hk ms|F]; cbn in P |- *; try tauto; discriminate.
  Qed.
  Lemma loud_jmp_weight p (m : md) : occurs p m -> is_conv p -> forall h x val v, raises (jmp m h x val (Some v) Weight).
  Proof.
    intros O P h x val v. apply raises_not. apply (jmp_up p m); auto. clear h x val v. intros h x val v t.
    destruct p as [[]|c|hk ms|F]; cbn in P |- *; try tauto; discriminate.
  Qed.
  Lemma loud_jmjTp_input p (m : md) : occurs p m -> is_conv p \/ is_upsample p \/ is_pool p -> forall h x val M fd td db, raises (jmjTp m h x val M Input fd td db).
  Proof.
    intros O P h x val M fd td db. apply raises_not. apply (jmjTp_up Input p m); try easy. clear h x val M fd td db. intros h x val v fd td db t E.
    destruct p as [[]|c|hk ms|F]; cbn in P; try tauto; cbn [jmjTp] in E.
    - cbn [snd leaf_jmjTp] in E. unfold conv_jmjTp in E. crushall E.
    - cbn [snd leaf_jmjTp] in E. unfold up_jmjTp in E. crushall E.
    - destruct (ensure _ _ _ _) as [s r]. cbn [snd] in E. crush E.
  Qed.
  Lemma loud_jmjTp_weight p (m : md) : occurs p m -> is_conv p -> n_params p <> 0 -> forall h x val M fd td db, raises (jmjTp m h x val M Weight fd td db).
  Proof.
    intros O P Np h x val M fd td db. apply raises_not. apply (jmjTp_up Weight p m); try easy. clear h x val M fd td db. intros h x val v fd td db t E.
    destruct p as [[]|c|hk ms|F]; cbn in P; try tauto; cbn [jmjTp] in E.
    cbn [snd leaf_jmjTp] in E. unfold conv_jmjTp in E. crushall E.
  Qed.
End Loud.

(** a SkipConnection without parameters: the products with respect to the weight raise *)
Section LoudSkip.
  Context {K} `{CR : CRing K}.
  Notation T := (tensor K).
  Notation md := (module K).

  Lemma jvp_np_none :
    (forall (m : md) s s', typed m s s' -> n_params m = 0 -> forall b h x val v t, 0 < b -> wf x -> shape x = b :: s -> val_ok m x val ->
       snd (jvp m h x val v Weight) = Ok t -> t = None) /\
    (forall (ms : list md) s s', typed_seq ms s s' -> seq_np ms = 0 -> forall b hk ks fm x v t, 0 < b -> wf x -> shape x = b :: s ->
       snd (seq_jvp_w jvp hk ms ks x fm v 0 None) = Ok t -> t = None).
  Proof.
    apply typed_both.
    - intros l s s' Ty E b h x val v t Hb Wx Sx V R.
      cbn [jvp snd] in R. pose proof (leaf_np0 l s s' Ty E) as Z. destruct l; try tauto; try (now inversion R).
      cbn [leaf_jvp] in R. unfold aj_jvp in R. destruct Ty as (_ & _ & C). destruct (C b x Hb Wx Sx) as (y & J & Fy & _ & _ & _ & _ & Q).
      assert (V' : val = None \/ val = Some y) by (destruct V as [->|(y' & E' & ->)]; [now left|right; change (cu_forward c x = Ok y') in E'; congruence]).
      destruct (Q val V') as [_ X]. rewrite X in R. now inversion R.
    - intros cfg s s' Ty E b h x val v t Hb Wx Sx V R. now inversion R.
    - intros ms s s' Ts IH E b h x val v t Hb Wx Sx V R. cbn [jvp] in R. specialize (IH E b true (st_kids h) (st_fm h) x v t Hb Wx Sx).
      destruct (seq_jvp_w _ _ _ _ _ _ _ _ _) as [[? ?] ?]. now apply IH.
    - intros ms c c' r Ts IH E b h x val v t Hb Wx Sx V R. cbn [jvp] in R.
      destruct (bind (size 0 x) _) as [[[b' l] tl]|]; [|discriminate R]. cbn [jvp] in R.
      destruct (seq_jvp_w _ _ _ _ _ _ _ _ _) as [[ks fm] q] eqn:Q. cbn [snd] in R. destruct q as [q|]; [|discriminate R].
      assert (q = None) by (eapply (IH E b); [exact Hb|exact Wx|exact Sx|rewrite Q; reflexivity]). subst q. cbn [bind] in R. destruct (reshape _ _); discriminate R.
    - intros s _ _ b hk ks fm x v t Hb Wx Sx R. now inversion R.
    - intros m ms s s1 s2 Tm IHm Ts IHs E b hk ks fm x v t Hb Wx Sx R. change (n_params m + seq_np ms = 0) in E.
      destruct (fwd_total m s s1 b x Tm Hb Wx Sx) as (y & Fy & Wy & Sy). cbn [seq_jvp_w] in R. destruct (kid_split ks) as [k0 ks0]. rewrite forward_eta, Fy in R. cbn [bind] in R.
      replace (n_params m) with 0 in R by lia. change (0 + 0) with 0 in R. destruct (slice n0 1 0 0 v) as [vp|]; [|discriminate R]. cbn [bind] in R.
      destruct (jvp m _ x (Some y) vp Weight) as [k1 [r1|]] eqn:Q; [|discriminate R].
      assert (r1 = None) by (eapply (IHm ltac:(lia) b); [exact Hb|exact Wx|exact Sx|right; eauto|rewrite Q; reflexivity]). subst r1. cbn [bind accumulate] in R.
      specialize (IHs ltac:(lia) b hk ks0 (hook_push hk fm y) y v t Hb Wy Sy). destruct (seq_jvp_w _ _ _ _ _ _ _ _ _) as [[? ?] ?]. now apply IHs.
  Qed.
  Lemma jvp_skip_raises (F : md) : n_params F = 0 ->
    (forall (m : md) s s', typed m s s' -> occurs (Skip F) m -> forall b h x val v t, 0 < b -> wf x -> shape x = b :: s -> val_ok m x val ->
       snd (jvp m h x val v Weight) <> Ok t) /\
    (forall (ms : list md) s s', typed_seq ms s s' -> (exists m, In m ms /\ occurs (Skip F) m) -> forall b hk ks fm x v p acc t, 0 < b -> wf x -> shape x = b :: s ->
       snd (seq_jvp_w jvp hk ms ks x fm v p acc) <> Ok t).
  Proof.
    intros Np. apply typed_both.
    - intros l s s' Ty O. inversion O.
    - intros cfg s s' Ty O. inversion O.
    - intros ms s s' Ts IH O b h x val v t Hb Wx Sx V R. assert (O' : exists m, In m ms /\ occurs (Skip F) m) by (inversion O; subst; eauto).
      cbn [jvp] in R. specialize (IH O' b true (st_kids h) (st_fm h) x v 0 None t Hb Wx Sx). destruct (seq_jvp_w _ _ _ _ _ _ _ _ _) as [[? ?] ?]. now apply IH.
    - intros ms c c' r Ts IH O b h x val v t Hb Wx Sx V R. cbn [jvp] in R.
      destruct (bind (size 0 x) _) as [[[b' l] tl]|]; [|discriminate R]. cbn [jvp] in R.
      destruct (seq_jvp_w _ _ _ _ _ _ _ _ _) as [[ks fm] q] eqn:Q. cbn [snd] in R. destruct q as [q|]; [|discriminate R].
      inversion O as [HF| |F' O']; subst.
      + assert (q = None) by (eapply (proj2 jvp_np_none ms _ _ Ts Np b); [exact Hb|exact Wx|exact Sx|rewrite Q; reflexivity]). subst q.
        cbn [bind] in R. destruct (reshape _ _); discriminate R.
      + inversion O' as [|h0 ms0 m0 I0 O0|]; subst. eapply (IH ltac:(eauto) b); [exact Hb|exact Wx|exact Sx|rewrite Q; reflexivity].
    - intros s _ (m & [] & _).
    - intros m ms s s1 s2 Tm IHm Ts IHs (m' & I & O) b hk ks fm x v p acc t Hb Wx Sx R.
      destruct (fwd_total m s s1 b x Tm Hb Wx Sx) as (y & Fy & Wy & Sy). cbn [seq_jvp_w] in R. destruct (kid_split ks) as [k0 ks0]. rewrite forward_eta, Fy in R. cbn [bind] in R.
      destruct (match acc with None => _ | Some _ => _ end) as [k1 r1]. destruct (bind r1 _) as [[acc1 vp]|]; [|discriminate R].
      destruct (jvp m k1 x (Some y) vp Weight) as [k2 [r2|]] eqn:Q; [|discriminate R]. cbn [bind] in R. destruct (accumulate acc1 r2) as [acc2|]; [|discriminate R].
      destruct I as [->|I].
      + eapply (IHm O b); [exact Hb|exact Wx|exact Sx|right; eauto|rewrite Q; reflexivity].
      + specialize (IHs ltac:(eauto) b hk ks0 (hook_push hk fm y) y v (p + n_params m) acc2 t Hb Wy Sy). destruct (seq_jvp_w _ _ _ _ _ _ _ _ _) as [[? ?] ?]. now apply IHs.
  Qed.
  Lemma jmp_np_none :
    (forall (m : md) s s', typed m s s' -> n_params m = 0 -> forall b h x val v t, 0 < b -> wf x -> shape x = b :: s -> val_ok m x val ->
       snd (jmp m h x val (Some v) Weight) = Ok t -> t = None) /\
    (forall (ms : list md) s s', typed_seq ms s s' -> seq_np ms = 0 -> forall b hk ks fm x v t, 0 < b -> wf x -> shape x = b :: s ->
       snd (seq_jmp_w jmp hk ms ks x fm v 0 None) = Ok t -> t = None).
  Proof.
    apply typed_both.
    - intros l s s' Ty E b h x val v t Hb Wx Sx V R.
      cbn [jmp snd] in R. pose proof (leaf_np0 l s s' Ty E) as Z. destruct l; try tauto; try (now inversion R).
      cbn [leaf_jmp] in R. unfold aj_jmp in R. destruct Ty as (_ & _ & C). destruct (C b x Hb Wx Sx) as (y & J & Fy & _ & _ & _ & _ & Q).
      assert (V' : val = None \/ val = Some y) by (destruct V as [->|(y' & E' & ->)]; [now left|right; change (cu_forward c x = Ok y') in E'; congruence]).
      destruct (Q val V') as [_ X]. rewrite X in R. now inversion R.
    - intros cfg s s' Ty E b h x val v t Hb Wx Sx V R. now inversion R.
    - intros ms s s' Ts IH E b h x val v t Hb Wx Sx V R. cbn [jmp wrt_ok] in R. specialize (IH E b true (st_kids h) (st_fm h) x v t Hb Wx Sx).
      destruct (seq_jmp_w _ _ _ _ _ _ _ _ _) as [[? ?] ?]. now apply IH.
    - intros ms c c' r Ts IH E b h x val v t Hb Wx Sx V R. cbn [jmp wrt_ok] in R.
      destruct (bind (size 0 x) _) as [[[b' l] tl]|]; [|discriminate R]. cbn [jmp wrt_ok] in R.
      destruct (seq_jmp_w _ _ _ _ _ _ _ _ _) as [[ks fm] q] eqn:Q. cbn [snd] in R. destruct q as [q|]; [|discriminate R].
      assert (q = None) by (eapply (IH E b); [exact Hb|exact Wx|exact Sx|rewrite Q; reflexivity]). subst q. cbn [bind] in R. destruct (size 2 v); discriminate R.
    - intros s _ _ b hk ks fm x v t Hb Wx Sx R. now inversion R.
    - intros m ms s s1 s2 Tm IHm Ts IHs E b hk ks fm x v t Hb Wx Sx R. change (n_params m + seq_np ms = 0) in E.
      destruct (fwd_total m s s1 b x Tm Hb Wx Sx) as (y & Fy & Wy & Sy). cbn [seq_jmp_w] in R. destruct (kid_split ks) as [k0 ks0]. rewrite forward_eta, Fy in R. cbn [bind] in R.
      replace (n_params m) with 0 in R by lia. change (0 + 0) with 0 in R. destruct (slice n0 1 0 0 v) as [vp|]; [|discriminate R]. cbn [bind] in R.
      destruct (check _ _ _) as [[a vp']|] eqn:Ck; [|discriminate R]. assert (a = None /\ vp' = vp) as [-> ->] by (unfold check in Ck; destruct (Nat.eqb _ _); [now inversion Ck|discriminate Ck]).
      destruct (jmp m _ x (Some y) (Some vp) Weight) as [k1 [r1|]] eqn:Q; [|discriminate R].
      assert (r1 = None) by (eapply (IHm ltac:(lia) b); [exact Hb|exact Wx|exact Sx|right; eauto|rewrite Q; reflexivity]). subst r1. cbn [bind accumulate] in R.
      specialize (IHs ltac:(lia) b hk ks0 (hook_push hk fm y) y v t Hb Wy Sy). destruct (seq_jmp_w _ _ _ _ _ _ _ _ _) as [[? ?] ?]. now apply IHs.
  Qed.
  Lemma jmp_skip_raises (F : md) : n_params F = 0 ->
    (forall (m : md) s s', typed m s s' -> occurs (Skip F) m -> forall b h x val v t, 0 < b -> wf x -> shape x = b :: s -> val_ok m x val ->
       snd (jmp m h x val (Some v) Weight) <> Ok t) /\
    (forall (ms : list md) s s', typed_seq ms s s' -> (exists m, In m ms /\ occurs (Skip F) m) -> forall b hk ks fm x v p acc t, 0 < b -> wf x -> shape x = b :: s ->
       snd (seq_jmp_w jmp hk ms ks x fm v p acc) <> Ok t).
  Proof.
    intros Np. apply typed_both.
    - intros l s s' Ty O. inversion O.
    - intros cfg s s' Ty O. inversion O.
    - intros ms s s' Ts IH O b h x val v t Hb Wx Sx V R. assert (O' : exists m, In m ms /\ occurs (Skip F) m) by (inversion O; subst; eauto).
      cbn [jmp wrt_ok] in R. specialize (IH O' b true (st_kids h) (st_fm h) x v 0 None t Hb Wx Sx). destruct (seq_jmp_w _ _ _ _ _ _ _ _ _) as [[? ?] ?]. now apply IH.
    - intros ms c c' r Ts IH O b h x val v t Hb Wx Sx V R. cbn [jmp wrt_ok] in R.
      destruct (bind (size 0 x) _) as [[[b' l] tl]|]; [|discriminate R]. cbn [jmp wrt_ok] in R.
      destruct (seq_jmp_w _ _ _ _ _ _ _ _ _) as [[ks fm] q] eqn:Q. cbn [snd] in R. destruct q as [q|]; [|discriminate R].
      inversion O as [HF| |F' O']; subst.
      + assert (q = None) by (eapply (proj2 jmp_np_none ms _ _ Ts Np b); [exact Hb|exact Wx|exact Sx|rewrite Q; reflexivity]). subst q.
        cbn [bind] in R. destruct (size 2 v); discriminate R.
      + inversion O' as [|h0 ms0 m0 I0 O0|]; subst. eapply (IH ltac:(eauto) b); [exact Hb|exact Wx|exact Sx|rewrite Q; reflexivity].
    - intros s _ (m & [] & _).
    - intros m ms s s1 s2 Tm IHm Ts IHs (m' & I & O) b hk ks fm x v p acc t Hb Wx Sx R.
      destruct (fwd_total m s s1 b x Tm Hb Wx Sx) as (y & Fy & Wy & Sy). cbn [seq_jmp_w] in R. destruct (kid_split ks) as [k0 ks0]. rewrite forward_eta, Fy in R. cbn [bind] in R.
      destruct (match acc with None => _ | Some _ => _ end) as [k1 r1]. destruct (bind r1 _) as [[acc1 vp]|]; [|discriminate R].
      destruct (jmp m k1 x (Some y) (Some vp) Weight) as [k2 [r2|]] eqn:Q; [|discriminate R]. cbn [bind] in R. destruct (accumulate acc1 r2) as [acc2|]; [|discriminate R].
      destruct I as [->|I].
      + eapply (IHm O b); [exact Hb|exact Wx|exact Sx|right; eauto|rewrite Q; reflexivity].
      + specialize (IHs ltac:(eauto) b hk ks0 (hook_push hk fm y) y v (p + n_params m) acc2 t Hb Wy Sy). destruct (seq_jmp_w _ _ _ _ _ _ _ _ _) as [[? ?] ?]. now apply IHs.
  Qed.

  (** the hypotheses of C04, C05, C08, C09 in terms of what the network contains *)
  Lemma fwdable_occurs : forall m : md, fwdable m <-> forall p, occurs p m -> ~ (is_conv p \/ is_upsample p \/ is_pool p).
  Proof.
    pose (P := fun m : md => fwdable m <-> forall p, occurs p m -> ~ (is_conv p \/ is_upsample p \/ is_pool p)). change (forall m, P m).
    apply (module_ind2 P (Forall P)); [| | | |now constructor|now constructor]; unfold P; clear P.
    - intros l. split.
      + intros A p O. inversion O; subst. destruct l; cbn in *; tauto.
      + intros A. specialize (A _ (oc_here _)). destruct l; cbn in *; tauto.
    - intros c. split; [intros []|]. intros A. apply (A _ (oc_here _)). cbn. auto.
    - intros h ms IH. cbn [fwdable]. rewrite Forall_go. rewrite Forall_forall in IH |- *. split.
      + intros A p O. inversion O as [|h0 ms0 m I O'|]; subst; [cbn; tauto|]. now apply (IH m I); [apply A|].
      + intros A m I. apply (IH m I). intros p O. apply A. econstructor; eauto.
    - intros F IH. cbn [fwdable]. rewrite IH. split.
      + intros A p O. inversion O; subst; [cbn; tauto|]. now apply A.
      + intros A p O. apply A. now constructor.
  Qed.
  Lemma skips_occurs : forall m : md, skips_param m <-> forall F, occurs (Skip F) m -> n_params F <> 0.
  Proof.
    pose (P := fun m : md => skips_param m <-> forall F, occurs (Skip F) m -> n_params F <> 0). change (forall m, P m).
    apply (module_ind2 P (Forall P)); [| | | |now constructor|now constructor]; unfold P; clear P.
    - intros l. split; [|constructor]. intros A p O. inversion O.
    - intros c. split; [|constructor]. intros A p O. inversion O.
    - intros h ms IH. cbn [skips_param]. rewrite Forall_go. rewrite Forall_forall in IH |- *. split.
      + intros A p O. inversion O as [|h0 ms0 m I O'|]; subst. now apply (IH m I); [apply A|].
      + intros A m I. apply (IH m I). intros p O. apply A. econstructor; eauto.
    - intros F IH. cbn [skips_param]. rewrite IH. split.
      + intros [A B] p O. inversion O; subst; auto.
      + intros A. split; [apply A; constructor|]. intros p O. apply A. now constructor.
  Qed.

  Lemma fwdable_dec : forall m : md, fwdable m \/ ~ fwdable m.
  Proof.
    pose (P := fun m : md => fwdable m \/ ~ fwdable m). change (forall m, P m).
    apply (module_ind2 P (Forall P)); [| | | |now constructor|now constructor]; unfold P; clear P.
    - intros []; cbn; tauto.
    - cbn; tauto.
    - intros h ms IH. cbn [fwdable]. rewrite Forall_go. induction IH as [|m ms Hm _ IH]; [left; constructor|]. destruct Hm; [destruct IH|].
      + left. now constructor.
      + right. intros Q. inversion Q. auto.
      + right. intros Q. inversion Q. auto.
    - intros F IH. exact IH.
  Qed.
  (** on a well-shaped input the exception is NotImplementedError *)
  Lemma jvp_not_implemented :
    (forall (m : md) s s', typed m s s' -> ~ fwdable m -> forall b h x val v, 0 < b -> wf x -> shape x = b :: s -> val_ok m x val -> wf v -> shape v = [b; numel s] ->
       snd (jvp m h x val v Input) = Raise NotImplementedError) /\
    (forall (ms : list md) s s', typed_seq ms s s' -> ~ fwdable_seq ms -> forall b hk ks fm x v, 0 < b -> wf x -> shape x = b :: s -> wf v -> shape v = [b; numel s] ->
       snd (seq_jvp_in jvp hk ms ks x fm v) = Raise NotImplementedError).
  Proof.
    apply typed_both.
    - intros l s s' Ty Nf b h x val v Hb Wx Sx V Wv Sv. destruct l; try (now destruct Nf); reflexivity.
    - reflexivity.
    - intros ms s s' Ts IH Nf b h x val v Hb Wx Sx V Wv Sv. cbn [jvp]. specialize (IH Nf b true (st_kids h) (st_fm h) x v Hb Wx Sx Wv Sv).
      destruct (seq_jvp_in _ _ _ _ _ _ _) as [[? ?] ?]. cbn [snd] in *. now rewrite IH.
    - intros ms c c' r Ts IH Nf b h x val v Hb Wx Sx V Wv Sv. cbn [jvp].
      assert (Es : size 0 x = Ok b) by (unfold size; now rewrite Sx). rewrite Es, (numel0_ok x b _ Hb Sx). cbn [bind].
      assert (EV : exists t, val_tail (numel (c :: r)) val = Ok t).
      { destruct V as [->|(y & Fy & ->)]; [cbn; eauto|].
        destruct (fwd_total (Skip (Seq true ms)) (c :: r) _ b x (ty_skip ms c c' r Ts) Hb Wx Sx) as (y' & Fy' & _ & Sy). assert (y' = y) by congruence. subst y'.
        destruct (slice_from_any y (numel (c :: r))) as [vy Ey]; [unfold rank; rewrite Sy; cbn; lia|]. cbn [val_tail]. rewrite Ey. cbn. eauto. }
      destruct EV as [t ->]. cbn [bind jvp].
      specialize (IH Nf b true (st_kids (st_kid h)) (st_fm (st_kid h)) x v Hb Wx Sx Wv Sv).
      destruct (seq_jvp_in _ _ _ _ _ _ _) as [[? ?] ?]. cbn [snd] in *. now rewrite IH.
    - intros s Hs Nf. now destruct Nf.
    - intros m ms s s1 s2 Tm IHm Ts IHs Nf b hk ks fm x v Hb Wx Sx Wv Sv. cbn [seq_jvp_in].
      destruct (fwd_total m s s1 b x Tm Hb Wx Sx) as (y & Fy & Wy & Sy). destruct (kid_split ks) as [k0 ks0]. rewrite forward_eta, Fy.
      assert (V : val_ok m x (Some y)) by (right; eauto).
      destruct (fwdable_dec m) as [Fm|Fm].
      + destruct (jvp_input m s s1 b x Tm Hb Wx Sx st0 (fst (forward m k0 x)) (Some y) v Fm V Wv Sv) as (J & _ & _ & _ & E).
        destruct (jvp m _ x (Some y) v Input) as [k1 r1]. cbn [snd] in E. rewrite E. cbn [bind need].
        specialize (IHs ltac:(intros Q; apply Nf; now split) b hk ks0 (hook_push hk fm y) y _ Hb Wy Sy (wf_Jv b (numel s1) (numel s) (entry J) v) eq_refl).
        destruct (seq_jvp_in _ _ ms _ _ _ _) as [[? ?] ?]. exact IHs.
      + specialize (IHm Fm b (fst (forward m k0 x)) x (Some y) v Hb Wx Sx V Wv Sv). destruct (jvp m _ x (Some y) v Input) as [k1 r1]. cbn [snd] in IHm. now rewrite IHm.
  Qed.
End LoudSkip.
