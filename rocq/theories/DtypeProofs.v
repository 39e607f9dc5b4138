(** Proofs about Dtype.v. *)
From Coq Require Import List Arith Bool Lia.
From Verif Require Import Scalar Tensor Conv Abstract Simple LinearLayer ConvLayer PoolLayer Module TreeBase Dtype DtypeSpec.
Import ListNotations.
Local Open Scope nat_scope.

Section P.
  Context {K} `{Num K}.
  Variables d dd : dtype.
  Notation good := (good d). Notation gopt := (good_opt d). Notation gs := (good_state d).
  Notation gv := (good_value d).
  Notation plain := (plain d dd). Notation backward := (backward d dd).

  Lemma good_mk a : good a -> exists c, a = mkN d c /\ dle d c = true.
  Proof. destruct a as [u c]. intros [E L]. cbn in *. subst. eauto. Qed.
  Lemma good_elem a b : good a -> good b -> good (elem a b).
  Proof. intros A B. destruct (good_mk _ A) as (c & -> & L), (good_mk _ B) as (e & -> & L').
    destruct d, c, e; try discriminate; split; reflexivity. Qed.
  Lemma good_like a : good a -> good (like a).
  Proof. intros [E _]. split; [exact E|]. now destruct d. Qed.
  Lemma good_add a b : good a -> good b -> good (add_in a b).
  Proof. intros A B. destruct (good_mk _ A) as (c & -> & L), (good_mk _ B) as (e & -> & L').
    destruct d, c, e; try discriminate; split; reflexivity. Qed.
  Lemma good_par : good (par d).
  Proof. split; [reflexivity|]. now destruct d. Qed.
  Lemma good_default : dd = d -> good (default dd).
  Proof. intros ->. split; [reflexivity|]. now destruct d. Qed.
  Lemma good_promote a : dle dd d = true -> good a -> good (elem (default dd) a).
  Proof. intros L A. destruct (good_mk _ A) as (c & -> & L'). destruct d, dd, c; try discriminate; split; reflexivity. Qed.
  Lemma good_assign a : good a -> good (assign d a).
  Proof. intros A. destruct (good_mk _ A) as (c & -> & L). destruct d, c; try discriminate; split; reflexivity. Qed.
  Lemma good_biased {B} (b : option B) e a : good e -> good a -> good (biased b e a).
  Proof. destruct b; cbn; auto using good_elem. Qed.
  Lemma eqb_refl u : dtype_eqb u u = true. Proof. now destruct u. Qed.
  Lemma eqb_iff u v : dtype_eqb u v = true <-> u = v.
  Proof. split; [destruct u, v; try discriminate; reflexivity|intros ->; apply eqb_refl]. Qed.
  Lemma contract_ok a b : good a -> good b -> contract a b = Ok (elem a b).
  Proof. intros [A _] [B _]. unfold contract. now rewrite A, B, eqb_refl. Qed.
  Lemma put_ok a : good a -> put d a = Ok (assign d a).
  Proof. intros [A _]. unfold put. now rewrite A, eqb_refl. Qed.
  Lemma good_cats l : forall a, good a -> Forall good l -> good (cats a l).
  Proof. unfold cats. induction l as [|b l IH]; intros a A L; [exact A|]. inversion L; subst. cbn. apply IH; auto using good_elem. Qed.
  Lemma good_cat l : Forall good l -> gopt (t_cat l).
  Proof. destruct l as [|a l]; [exact (fun _ => I)|]. intros L. inversion L; subst. cbn. now apply good_cats. Qed.

  Lemma fit_bind {A B} (P : A -> Prop) (Q : B -> Prop) r (f : A -> res B) :
    fit P r -> (forall a, P a -> fit Q (f a)) -> fit Q (bind r f).
  Proof. destruct r; cbn; auto. Qed.
  Lemma fit_ok {A} (P : A -> Prop) a : P a -> fit P (Ok a). Proof. auto. Qed.
  Lemma fit_contract a b : good a -> good b -> fit good (contract a b).
  Proof. intros. rewrite contract_ok by auto. cbn. now apply good_elem. Qed.
  Lemma fit_put a : good a -> fit good (put d a).
  Proof. intros. rewrite put_ok by auto. now apply good_assign. Qed.
  Lemma fit_some r : fit good r -> fit gopt (some r).
  Proof. destruct r; cbn; auto. Qed.
  Lemma fit_need o : gopt o -> fit good (need o).
  Proof. destruct o; cbn; auto. discriminate. Qed.
  Lemma fit_weak {A} (P Q : A -> Prop) r : (forall a, P a -> Q a) -> fit P r -> fit Q r.
  Proof. destruct r; cbn; auto. Qed.
  Lemma fit_missing b w : fit gopt (t_missing b w).
  Proof. destruct b, w; cbn; auto; discriminate. Qed.

  (** results that are tensors when taken with respect to the input *)
  Definition tens (w : wrt) (o : option num) : Prop := match o with Some n => good n | None => w <> Input end.
  Lemma tens_gopt w o : tens w o -> gopt o. Proof. destruct o; cbn; auto. Qed.
  Lemma fit_somet w r : fit good r -> fit (tens w) (some r).
  Proof. destruct r; cbn; auto. Qed.
  Lemma fit_missingt b w : fit (tens w) (t_missing b w).
  Proof. destruct b, w; cbn; auto; discriminate. Qed.

  Ltac gd := repeat (first
    [ assumption | exact I | reflexivity | discriminate
    | match goal with
      | |- good (elem (default _) _) => apply good_promote; [solve [auto]|]
      | |- good (elem _ _) => apply good_elem
      | |- good (like _) => apply good_like
      | |- good (par _) => apply good_par
      | |- good (assign _ _) => apply good_assign
      | |- good (biased _ _ _) => apply good_biased
      | |- fit _ (bind _ _) => apply (fit_bind good); [|intros ? ?]
      | |- fit _ (contract _ _) => apply fit_contract
      | |- fit _ (put _ _) => apply fit_put
      | |- fit _ (some _) => apply fit_some || apply fit_somet
      | |- fit _ (need _) => apply fit_need
      | |- fit _ (t_missing _ _) => apply fit_missing || apply fit_missingt
      | |- fit _ (Ok _) => apply fit_ok
      | |- gopt (Some _) => cbn [good_opt]
      | |- tens _ (Some _) => cbn [tens]
      | |- tens _ None => cbn [tens]; discriminate
      end ]).

  (** *** Layers *)
  Lemma lin_val x val : good x -> gopt val -> fit good (t_lin_val d x val).
  Proof. intros X V. destruct val; cbn in *; auto. unfold t_lin_forward. gd. Qed.
  Lemma conv_val x val : good x -> gopt val -> fit good (t_conv_val d x val).
  Proof. intros X V. destruct val; cbn in *; auto. unfold t_lin_forward. gd. Qed.
  Lemma lin_jacobian {B} (b : option B) x val w : good x -> gopt val -> fit (tens w) (t_lin_jacobian d b x val w).
  Proof. intros X V. destruct w; cbn; gd. now apply lin_val. Qed.
  Lemma lin_jvp {B} (b : option B) x val v w : good x -> gopt val -> good v -> fit (tens w) (t_lin_jvp d b x val v w).
  Proof. intros X V G. destruct w; cbn [t_lin_jvp]; gd. now apply lin_val. Qed.
  Lemma lin_jmp {B} (b : option B) x val m w : good x -> gopt val -> gopt m -> fit (tens w) (t_lin_jmp d b x val m w).
  Proof. intros X V G. destruct m; [now apply lin_jvp|now apply lin_jacobian]. Qed.
  Lemma lin_vjp {B} (b : option B) x v w : good x -> good v -> fit (tens w) (t_lin_vjp d b x v w).
  Proof. intros X V. destruct w; cbn [t_lin_vjp]; gd. Qed.
  Lemma lin_mjp {B} (b : option B) x val m w : good x -> gopt val -> gopt m -> fit (tens w) (t_lin_mjp d b x val m w).
  Proof. intros X V G. destruct m; [now apply lin_vjp|now apply lin_jacobian]. Qed.
  Lemma lin_jmjTp {B} (b : option B) x val m w fd td db :
    good x -> gopt val -> gopt m -> fit gopt (t_lin_jmjTp d b x val m w fd td db).
  Proof. intros X V G. unfold t_lin_jmjTp. apply (fit_bind good); [now apply lin_val|]. intros y Y.
    destruct w; [|destruct m as [m|]; [destruct fd|]|]; gd; try (destruct m; cbn in *; gd; fail).
    - apply (fit_bind gopt); [eapply fit_weak; [|apply lin_jmp]; eauto using tens_gopt|]. intros a A.
      apply (fit_bind good); [now apply fit_need|]. intros c C.
      eapply fit_weak; [|apply lin_jmp]; eauto using tens_gopt. Qed.
  Lemma lin_jTmjp {B} (b : option B) x val m w fd td db :
    good x -> gopt val -> gopt m -> fit gopt (t_lin_jTmjp d b x val m w fd td db).
  Proof. intros X V G. unfold t_lin_jTmjp. apply (fit_bind good); [now apply lin_val|]. intros y Y.
    assert (G' : exists m' fd', match m with Some m => (m, fd) | None => (like y, true) end = (m', fd') /\ good m').
    { destruct m; eauto using good_like. }
    destruct G' as (m' & fd' & -> & M').
    destruct w; [|destruct fd', td|]; gd; try (destruct b; cbn; gd; fail). Qed.
  Lemma conv_back {B} cfg (b : option B) x val v w : cvmap cfg = true \/ dd = d ->
    good x -> gopt val -> good v -> fit (tens w) (t_conv_back d dd cfg b x val v w).
  Proof. intros C X V G. unfold t_conv_back. apply (fit_bind good); [now apply conv_val|]. intros y Y.
    destruct w; gd. unfold loop. destruct C as [->| ->]; [assumption|]. destruct (cvmap cfg); gd. Qed.
  Lemma conv_jacobian {B} cfg (b : option B) x val w : dd = d ->
    good x -> gopt val -> fit (tens w) (t_conv_jacobian d dd cfg b x val w).
  Proof. intros E X V. unfold t_conv_jacobian. apply (fit_bind good); [now apply conv_val|]. intros y Y.
    apply conv_back; auto using good_default. Qed.
  Lemma conv_mjp {B} cfg (b : option B) x val m w : dd = d \/ (cvmap cfg = true /\ m <> None) ->
    good x -> gopt val -> gopt m -> fit (tens w) (t_conv_mjp d dd cfg b x val m w).
  Proof. intros C X V G. unfold t_conv_mjp. apply (fit_bind good); [now apply conv_val|]. intros y Y.
    destruct m; [apply conv_back; intuition|]. destruct C as [C|[_ C]]; [|congruence]. now apply conv_jacobian. Qed.
  Lemma conv_jTmjp {B} cfg (b : option B) x val m w fd td db : cvmap cfg = true \/ dd = d ->
    good x -> gopt val -> gopt m -> fit gopt (t_conv_jTmjp d dd cfg b x val m w fd td db).
  Proof. intros C X V G. unfold t_conv_jTmjp. apply (fit_bind good); [now apply conv_val|]. intros y Y.
    assert (G' : exists m' fd', match m with Some m => (m, fd) | None => (like y, true) end = (m', fd') /\ good m').
    { destruct m; eauto using good_like. }
    destruct G' as (m' & fd' & -> & M').
    assert (L : forall e, good e -> good (loop dd cfg e)).
    { intros e E. unfold loop. destruct C as [->| ->]; [assumption|]. destruct (cvmap cfg); gd. }
    destruct w; [destruct (fd' && td)%bool|destruct (fd' && td)%bool|]; gd; apply L; gd. Qed.

  Definition leaf_ok (l : leaf K) : Prop := dd = d \/ plain (Leaf l) = true.
  Lemma act_jacobian_good a x val w : good x -> gopt val -> tens w (t_act_jacobian (K:=K) a x val w).
  Proof. intros X V. destruct w; cbn; try discriminate. destruct a, val; auto. Qed.
  Lemma ad_product a x val v w : good x -> gopt val -> good v -> tens w (t_ad_product (K:=K) a x val v w).
  Proof. intros X V G. unfold t_ad_product. pose proof (act_jacobian_good a x val w X V) as A. destruct t_act_jacobian; cbn in *; gd. Qed.
  Lemma ad_matrix a x val m w : good x -> gopt val -> gopt m -> tens w (t_ad_matrix (K:=K) a x val m w).
  Proof. intros X V G. destruct m; [now apply ad_product|now apply act_jacobian_good]. Qed.
  Lemma ad_metric a x val m o w : good x -> gopt val -> gopt m -> good o -> tens w (t_ad_metric (K:=K) a x val m o w).
  Proof. intros X V G O. unfold t_ad_metric. pose proof (act_jacobian_good a x val w X V) as A. destruct t_act_jacobian; cbn in *; [|exact A].
    destruct m; gd. Qed.
  Lemma id_matrix x m w : good x -> gopt m -> tens w (t_id_matrix x m w).
  Proof. intros X G. destruct w; cbn; try discriminate. destruct m; gd. Qed.
  Lemma l2_jacobian_good x w : dle dd d = true -> good x -> fit (tens w) (t_l2_jacobian dd x w).
  Proof. intros L X. destruct w; cbn; try discriminate. gd. Qed.
  Lemma cu_jacobian_good x w : good x -> fit (tens w) (t_cu_jacobian x w).
  Proof. intros X. destruct w; cbn; try discriminate. gd. Qed.
  Lemma aj_product w j v : fit (tens w) j -> good v -> fit (tens w) (t_aj_product j v).
  Proof. intros J V. unfold t_aj_product. eapply fit_bind; [exact J|]. intros [a|] A; cbn in *; gd. Qed.
  Lemma aj_matrix w j m : fit (tens w) j -> gopt m -> fit (tens w) (t_aj_matrix j m).
  Proof. intros J V. unfold t_aj_matrix. eapply fit_bind; [exact J|]. intros [a|] A; cbn in *; gd. Qed.
  Lemma aj_metric w j m : fit (tens w) j -> gopt m -> fit (tens w) (t_aj_metric j m).
  Proof. intros J V. unfold t_aj_metric. eapply fit_bind; [exact J|]. intros [a|] A; cbn in *; gd. Qed.
  Lemma up_mjp m w : dd = d -> gopt m -> fit (tens w) (t_up_mjp dd m w).
  Proof. intros E M. unfold t_up_mjp, t_up_back. destruct w; gd; [destruct m; auto|]; now apply good_default. Qed.

  Lemma dle_refl : dle d d = true. Proof. now destruct d. Qed.
  Ltac l2 L := match goal with |- fit _ (_ (t_l2_jacobian _ _ _)) => idtac | |- _ => idtac end;
    destruct L as [L|L]; [rewrite L; apply dle_refl|exact L].
  Lemma leaf_forward_good (l : leaf K) x : good x -> fit good (t_leaf_forward d l x).
  Proof. intros X. destruct l; cbn [t_leaf_forward]; unfold t_lin_forward; gd. Qed.
  Lemma leaf_jacobian_good (l : leaf K) x val w : leaf_ok l -> good x -> gopt val -> fit (tens w) (t_leaf_jacobian d dd l x val w).
  Proof. intros L X V. destruct l; cbn [t_leaf_jacobian].
    - now apply lin_jacobian.
    - destruct L as [L|L]; [now apply conv_jacobian|discriminate].
    - now apply act_jacobian_good.
    - now apply id_matrix.
    - now apply id_matrix.
    - apply l2_jacobian_good; auto. l2 L.
    - destruct L as [L|L]; [now apply up_mjp|discriminate].
    - now apply cu_jacobian_good. Qed.
  Lemma leaf_jvp_good (l : leaf K) x val v w : leaf_ok l -> good x -> gopt val -> good v -> fit (tens w) (t_leaf_jvp d dd l x val v w).
  Proof. intros L X V G. destruct l; cbn [t_leaf_jvp].
    - now apply lin_jvp.
    - apply fit_missingt.
    - now apply ad_product.
    - now apply id_matrix.
    - now apply id_matrix.
    - apply aj_product; auto. apply l2_jacobian_good; auto. l2 L.
    - apply fit_missingt.
    - apply aj_product; auto. now apply cu_jacobian_good. Qed.
  Lemma leaf_jmp_good (l : leaf K) x val m w : leaf_ok l -> good x -> gopt val -> gopt m -> fit (tens w) (t_leaf_jmp d dd l x val m w).
  Proof. intros L X V G. destruct l; cbn [t_leaf_jmp].
    - now apply lin_jmp.
    - destruct m; [apply fit_missingt|]. destruct L as [L|L]; [now apply conv_jacobian|discriminate].
    - now apply ad_matrix.
    - now apply id_matrix.
    - now apply id_matrix.
    - apply aj_matrix; auto. apply l2_jacobian_good; auto. l2 L.
    - destruct m; [apply fit_missingt|]. destruct L as [L|L]; [now apply up_mjp|discriminate].
    - apply aj_matrix; auto. now apply cu_jacobian_good. Qed.
  Lemma leaf_jmjTp_good (l : leaf K) x val m w fd td db : leaf_ok l -> good x -> gopt val -> gopt m ->
    fit gopt (t_leaf_jmjTp d dd l x val m w fd td db).
  Proof. intros L X V G. destruct l; cbn [t_leaf_jmjTp].
    - now apply lin_jmjTp.
    - apply (fit_bind good); [now apply conv_val|]. intros. apply fit_missing.
    - apply fit_ok. eapply tens_gopt. apply ad_metric; auto. gd.
    - apply fit_ok. eapply tens_gopt. apply id_matrix; auto.
    - apply fit_ok. eapply tens_gopt. apply id_matrix; auto.
    - eapply fit_weak; [apply tens_gopt|]. apply aj_metric; auto. apply l2_jacobian_good; auto. l2 L.
    - apply fit_missing.
    - eapply fit_weak; [apply tens_gopt|]. apply aj_metric; auto. now apply cu_jacobian_good. Qed.

  Definition leaf_okb (l : leaf K) : Prop := dd = d \/ backward (Leaf l) = true.
  Lemma leaf_vjp_good (l : leaf K) x val v w : leaf_okb l -> good x -> gopt val -> good v -> fit (tens w) (t_leaf_vjp d dd l x val v w).
  Proof. intros L X V G. destruct l; cbn [t_leaf_vjp].
    - now apply lin_vjp.
    - apply conv_back; auto. destruct L; auto.
    - now apply ad_product.
    - now apply id_matrix.
    - now apply id_matrix.
    - apply aj_product; auto. apply l2_jacobian_good; auto. l2 L.
    - destruct L as [L|L]; [|discriminate]. now apply (up_mjp (Some v)).
    - apply aj_product; auto. now apply cu_jacobian_good. Qed.
  Lemma leaf_mjp_good (l : leaf K) x val m w : dd = d \/ plain (Leaf l) = true \/ (backward (Leaf l) = true /\ m <> None) ->
    good x -> gopt val -> gopt m -> fit (tens w) (t_leaf_mjp d dd l x val m w).
  Proof. intros L X V G. destruct l; cbn [t_leaf_mjp].
    - now apply lin_mjp.
    - apply conv_mjp; auto. destruct L as [L|[L|L]]; auto. discriminate.
    - now apply ad_matrix.
    - now apply id_matrix.
    - now apply id_matrix.
    - apply aj_matrix; auto. apply l2_jacobian_good; auto. destruct L as [L|[L|[L _]]]; [rewrite L; apply dle_refl|exact L|exact L].
    - apply up_mjp; auto. destruct L as [L|[L|[L _]]]; auto; discriminate.
    - apply aj_matrix; auto. now apply cu_jacobian_good. Qed.
  Lemma leaf_jTmjp_good (l : leaf K) x val m w fd td db : leaf_okb l -> good x -> gopt val -> gopt m ->
    fit gopt (t_leaf_jTmjp d dd l x val m w fd td db).
  Proof. intros L X V G.
    assert (Y : good (match val with Some v => v | None => x end)) by (destruct val; auto).
    destruct l; cbn [t_leaf_jTmjp].
    - now apply lin_jTmjp.
    - apply conv_jTmjp; auto. destruct L; auto.
    - apply fit_ok. eapply tens_gopt. apply ad_metric; auto. gd.
    - apply fit_ok. eapply tens_gopt. apply id_matrix; auto.
    - apply fit_ok. eapply tens_gopt. apply id_matrix; auto.
    - eapply fit_weak; [apply tens_gopt|]. apply aj_metric; auto. apply l2_jacobian_good; auto. l2 L.
    - destruct L as [L|L]; [|discriminate]. pose proof (good_default L) as D.
      assert (G' : good (match m with Some m => m | None => like (match val with Some v => v | None => x end) end)) by (destruct m; gd).
      destruct w; [destruct (fd && td)%bool|..]; gd.
    - eapply fit_weak; [apply tens_gopt|]. apply aj_metric; auto. now apply cu_jacobian_good. Qed.

  (** *** States *)
  Lemma gs_st fm ks : Forall good fm -> Forall gs ks -> gs (TSt fm ks). Proof. intros. now constructor. Qed.
  Lemma gs_fm s : gs s -> Forall good (t_fm s). Proof. now intros []. Qed.
  Lemma gs_kids s : gs s -> Forall gs (t_kids s). Proof. now intros []. Qed.
  Lemma gs0 : gs tst0. Proof. repeat constructor. Qed.
  Lemma gs_kid s : gs s -> gs (t_kid s).
  Proof. intros [fm ks _ [|k l Hk _]]; [apply gs0|exact Hk]. Qed.
  Lemma gs_set s k : gs s -> gs k -> gs (t_set_kid s k).
  Proof. intros S0 Kk. apply gs_st; [now apply gs_fm|]. now constructor. Qed.
  Lemma gs_split ks : Forall gs ks -> gs (fst (t_split ks)) /\ Forall gs (snd (t_split ks)).
  Proof. destruct 1; cbn; [split; [apply gs0|constructor]|auto]. Qed.
  Lemma good_push h fm y : Forall good fm -> good y -> Forall good (t_push h fm y).
  Proof. destruct h; cbn; auto. intros F Y. apply Forall_app; auto. Qed.
  Lemma fit_fmap2 h fm k : Forall good fm -> fit (fun q => good (fst q) /\ good (snd q)) (t_fmap2 h fm k).
  Proof. intros F. unfold t_fmap2, t_fmap_at. destruct h; [|cbn; discriminate].
    destruct (nth_error fm k) eqn:E; [|cbn; discriminate]. cbn [bind]. destruct (nth_error fm (S k)) eqn:E'; [|cbn; discriminate]. cbn.
    rewrite Forall_forall in F. split; apply F; eauto using nth_error_In. Qed.
  Definition both {A} (P : A -> Prop) (q : tst * res A) : Prop := gs (fst q) /\ fit P (snd q).
  Definition boths {A} (P : A -> Prop) (q : list tst * res A) : Prop := Forall gs (fst q) /\ fit P (snd q).
  Definition bothf {A} (P : A -> Prop) (q : list tst * list num * res A) : Prop :=
    Forall gs (fst (fst q)) /\ Forall good (snd (fst q)) /\ fit P (snd q).
  Lemma raise_bind {A B} (P : A -> Prop) r (e : exn) (f : A -> res B) : fit P r -> (forall a, P a -> f a <> Raise RuntimeError) ->
    bind r f = Raise e -> e <> RuntimeError.
  Proof. destruct r as [a|e']; cbn; [|congruence]. intros A0 F E. specialize (F a A0). congruence. Qed.

  (** *** forward *)
  Lemma forward_good : forall (m : module K) s x, gs s -> good x -> both good (t_forward d m s x).
  Proof.
    refine (module_ind2 (fun m => forall s x, gs s -> good x -> both good (t_forward d m s x))
      (fun ms => forall h ks x fm, Forall gs ks -> good x -> Forall good fm -> bothf good (t_seq_forward (t_forward d) h ms ks x fm)) _ _ _ _ _ _).
    - intros l s x S0 X. split; [exact S0|]. now apply leaf_forward_good.
    - intros c s x S0 X. now split.
    - intros h ms IH s x S0 X. cbn [t_forward].
      specialize (IH h (t_kids s) x (if h then [x] else t_fm s) (gs_kids _ S0) X).
      destruct IH as (A & B & C). { destruct h; [auto|now apply gs_fm]. }
      destruct t_seq_forward as [[ks fm] r]. split; [now apply gs_st|exact C].
    - intros F IH s x S0 X. cbn [t_forward]. destruct (IH (t_kid s) x (gs_kid _ S0) X) as [A B]. destruct t_forward as [k r].
      split; [now apply gs_set|]. cbn in *. gd.
    - intros h ks x fm Ks X Fm. split; [constructor|now split].
    - intros m ms IHm IHs h ks x fm Ks X Fm. cbn [t_seq_forward]. destruct (gs_split ks Ks) as [Ka Kb].
      destruct (t_split ks) as [k l]. cbn in Ka, Kb. destruct (IHm k x Ka X) as [A B]. destruct t_forward as [k' r]. cbn in A, B.
      destruct r as [y|e]; [|split; [now constructor|split; auto]]. cbn in B.
      destruct (IHs h l y (t_push h fm y) Kb B (good_push _ _ _ Fm B)) as (A' & B' & C').
      destruct t_seq_forward as [[ks' fm'] r']. split; [now constructor|split; auto].
  Qed.
  Lemma ensure_good (m : module K) s x val : gs s -> good x -> gopt val -> both good (t_ensure d m s x val).
  Proof. intros S0 X V. destruct val; [now split|now apply forward_good]. Qed.

  (** *** vjp *)
  Lemma forallb_or {A} (f : A -> bool) a l (Q : Prop) : Q \/ forallb f (a :: l) = true ->
    (Q \/ f a = true) /\ (Q \/ forallb f l = true).
  Proof. cbn. rewrite andb_true_iff. tauto. Qed.
  Lemma vjp_good : forall (m : module K), dd = d \/ backward m = true ->
    forall s x val v w, gs s -> good x -> gopt val -> good v -> both (tens w) (t_vjp d dd m s x val v w).
  Proof.
    refine (module_ind2 (fun m => dd = d \/ backward m = true -> forall s x val v w, gs s -> good x -> gopt val -> good v ->
        both (tens w) (t_vjp d dd m s x val v w))
      (fun ms => dd = d \/ forallb backward ms = true -> forall h fm ks k v, Forall good fm -> Forall gs ks -> good v ->
        boths good (t_seq_vjp_in (t_vjp d dd) h fm ms ks k v)
        /\ boths (fun a => Forall good (fst a) /\ good (snd a)) (t_seq_vjp_w (t_vjp d dd) h fm ms ks k v)) _ _ _ _ _ _).
    - intros l L s x val v w S0 X V G. split; [exact S0|]. now apply leaf_vjp_good.
    - intros c [E|E]; [|discriminate]. intros s x val v w S0 X V G. split; [exact S0|]. cbn [t_vjp snd].
      destruct w; gd. rewrite E. gd.
    - intros h ms IH L s x val v w S0 X V G. specialize (IH L). cbn [t_vjp]. destruct w; cbn [wrt_ok]; [| |now split].
      all: destruct (ensure_good (Seq h ms) s x val S0 X V) as [A B]; destruct t_ensure as [s' [y|e]]; [|now split]; cbn in A, B.
      + destruct (IH h (t_fm s') (t_kids s') 0 v (gs_fm _ A) (gs_kids _ A) G) as [[C D] _].
        destruct t_seq_vjp_in as [ks r]. split; [apply gs_st; [now apply gs_fm|exact C]|]. cbn [snd] in *. now apply fit_somet.
      + destruct (IH h (t_fm s') (t_kids s') 0 v (gs_fm _ A) (gs_kids _ A) G) as [_ [C D]].
        destruct t_seq_vjp_w as [ks r]. split; [apply gs_st; [now apply gs_fm|exact C]|]. cbn [snd] in *.
        eapply fit_bind; [exact D|]. intros [vs u] [E _]. cbn in E |- *. pose proof (good_cat _ E). destruct t_cat; cbn in *; [assumption|discriminate].
    - intros F IH L s x val v w S0 X V G. cbn [t_vjp].
      destruct (IH L (t_kid s) x val v w (gs_kid _ S0) X V G) as [A B]. destruct t_vjp as [k r]. cbn in A, B.
      split; [now apply gs_set|]. cbn [snd]. eapply fit_bind; [exact B|]. intros o O. destruct w; [|exact O|cbn; discriminate].
      destruct o; [|now contradiction O]. cbn in *. gd.
    - intros L h fm ks k v Fm Ks G. split; split; cbn; auto.
    - intros m ms IHm IHs L h fm ks k v Fm Ks G. destruct (forallb_or _ _ _ _ L) as [L1 L2].
      specialize (IHm L1). specialize (IHs L2). cbn [t_seq_vjp_in t_seq_vjp_w].
      destruct (gs_split ks Ks) as [Ka Kb]. destruct (t_split ks) as [s l]. cbn in Ka, Kb.
      destruct (IHs h fm l (S k) v Fm Kb G) as [[A B] [C D]]. pose proof (fit_fmap2 h fm k Fm) as Q. split.
      + destruct t_seq_vjp_in as [ks' [u|e]]; [|split; [now constructor|exact B]]. cbn in A, B |- *.
        destruct (t_fmap2 h fm k) as [[x y]|e]; [|split; [now constructor|exact Q]]. destruct Q as [X Y]. cbn in X, Y |- *.
        destruct (IHm s x (Some y) u Input Ka X Y B) as [E1 E2]. destruct t_vjp as [s' r]. split; [now constructor|]. cbn in *.
        eapply fit_bind; [exact E2|]. intros [o|] O; [exact O|now contradiction O].
      + destruct t_seq_vjp_w as [ks' [[vs u]|e]]; [|split; [now constructor|exact D]]. destruct D as [D1 D2]. cbn in C, D1, D2 |- *.
        destruct (t_fmap2 h fm k) as [[x y]|e]; [|split; [now constructor|exact Q]]. destruct Q as [X Y]. cbn in X, Y |- *.
        destruct (IHm s x (Some y) u Weight Ka X Y D2) as [E1 E2]. destruct t_vjp as [s' [o|e]]; [|split; [now constructor|exact E2]].
        cbn in E1, E2. assert (V' : Forall good (match o with Some t => t :: vs | None => vs end)) by (destruct o; auto).
        destruct (Nat.eqb k 0); [split; [now constructor|now split]|].
        destruct (IHm s' x (Some y) u Input E1 X Y D2) as [E3 E4]. destruct t_vjp as [s'' r]. split; [now constructor|]. cbn in *.
        eapply fit_bind; [exact E4|]. intros [c|] O; [|now contradiction O]. cbn. now split.
  Qed.

  (** *** mjp *)
  Definition mjp_ok (m : module K) (mat : option num) : Prop :=
    dd = d \/ plain m = true \/ (backward m = true /\ (mat <> None \/ composite m = true)).
  Lemma plain_backward : forall m : module K, plain m = true -> backward m = true.
  Proof.
    refine (module_ind2 (fun m => plain m = true -> backward m = true) (fun ms => forallb plain ms = true -> forallb backward ms = true) _ _ _ _ _ _); cbn; auto.
    - intros [] E; auto. discriminate.
    - intros m ms A B. rewrite !andb_true_iff. tauto.
  Qed.
  Lemma mjp_ok_b m mat : mjp_ok m mat -> dd = d \/ backward m = true.
  Proof. intros [A|[A|[A _]]]; auto using plain_backward. Qed.
  Lemma mjp_good : forall (m : module K) s x val mat w, mjp_ok m mat -> gs s -> good x -> gopt val -> gopt mat ->
    both (tens w) (t_mjp d dd m s x val mat w).
  Proof.
    refine (module_ind2 (fun m => forall s x val mat w, mjp_ok m mat -> gs s -> good x -> gopt val -> gopt mat ->
        both (tens w) (t_mjp d dd m s x val mat w))
      (fun ms => dd = d \/ forallb backward ms = true -> forall h fm ks k v, Forall good fm -> Forall gs ks -> good v ->
        boths (tens Input) (t_seq_mjp_in (t_mjp d dd) h fm ms ks k (Some v))
        /\ boths (fun a => Forall good (fst a) /\ tens Input (snd a)) (t_seq_mjp_w (t_mjp d dd) h fm ms ks k (Some v))) _ _ _ _ _ _).
    - intros l s x val mat w L S0 X V G. split; [exact S0|]. apply leaf_mjp_good; auto.
      destruct L as [L|[L|[L [M|M]]]]; auto. discriminate.
    - intros c s x val mat w [E|[E|[E _]]]; try discriminate. intros S0 X V G. split; [exact S0|]. cbn [t_mjp snd].
      destruct mat, w; cbn [t_pool_jacobian]; gd; [rewrite E; gd|now apply good_default].
    - intros h ms IH s x val mat w L S0 X V G. specialize (IH (mjp_ok_b _ _ L)). cbn [t_mjp]. destruct w; cbn [wrt_ok]; [| |now split].
      all: destruct (ensure_good (Seq h ms) s x val S0 X V) as [A B]; destruct t_ensure as [s' [y|e]]; [|now split]; cbn in A, B.
      all: assert (G' : good (match mat with Some mt => mt | None => like x end)) by (destruct mat; gd).
      + destruct (IH h (t_fm s') (t_kids s') 0 _ (gs_fm _ A) (gs_kids _ A) G') as [[C D] _].
        destruct t_seq_mjp_in as [ks r]. split; [apply gs_st; [now apply gs_fm|exact C]|]. exact D.
      + destruct (IH h (t_fm s') (t_kids s') 0 _ (gs_fm _ A) (gs_kids _ A) G') as [_ [C D]].
        destruct t_seq_mjp_w as [ks r]. split; [apply gs_st; [now apply gs_fm|exact C]|]. cbn [snd] in *.
        eapply fit_bind; [exact D|]. intros [vs u] [E _]. cbn in E |- *. pose proof (good_cat _ E). destruct t_cat; cbn in *; [assumption|discriminate].
    - intros F IH s x val mat w L S0 X V G. cbn [t_mjp]. destruct mat as [mt|].
      + assert (L' : mjp_ok F (Some mt)).
        { destruct L as [L|[L|[L _]]]; [now left|right; now left|]. right; right. split; [exact L|left; discriminate]. }
        destruct (IH (t_kid s) x val (Some mt) w L' (gs_kid _ S0) X V G) as [A B]. destruct t_mjp as [k r]. cbn in A, B.
        split; [now apply gs_set|]. cbn [snd]. eapply fit_bind; [exact B|]. intros o O. destruct w; [|exact O|cbn; discriminate].
        destruct o; [|now contradiction O]. cbn in *. gd.
      + assert (L' : mjp_ok F None).
        { destruct L as [L|[L|[L [M|M]]]]; [now left|right; now left|congruence|]. right; right. split; [exact L|now right]. }
        unfold t_skip_jacobian.
        destruct (IH (t_kid s) x val None w L' (gs_kid _ S0) X V I) as [A B]. destruct t_mjp as [k [j|e]]; cbn in A, B; [|split; [now apply gs_set|exact B]].
        destruct (ensure_good (Skip F) (t_set_kid s k) x val (gs_set _ _ S0 A) X V) as [C D]. destruct t_ensure as [s' r]. cbn in C, D.
        split; [exact C|]. cbn [snd]. apply (fit_bind good); [exact D|]. intros y Y. pose proof (tens_gopt _ _ B) as B'. destruct w; gd.
    - intros L h fm ks k v Fm Ks G. split; split; cbn; auto.
    - intros m ms IHm IHs L h fm ks k v Fm Ks G. destruct (forallb_or _ _ _ _ L) as [L1 L2].
      assert (IHm' : forall s x y u w, gs s -> good x -> good y -> good u -> both (tens w) (t_mjp d dd m s x (Some y) (Some u) w)).
      { intros. apply IHm; auto. destruct L1 as [L1|L1]; [now left|right; right]. split; [exact L1|left; discriminate]. }
      clear IHm. specialize (IHs L2). cbn [t_seq_mjp_in t_seq_mjp_w].
      destruct (gs_split ks Ks) as [Ka Kb]. destruct (t_split ks) as [s l]. cbn in Ka, Kb.
      destruct (IHs h fm l (S k) v Fm Kb G) as [[A B] [C D]]. pose proof (fit_fmap2 h fm k Fm) as Q. split.
      + destruct t_seq_mjp_in as [ks' [u|e]]; [|split; [now constructor|exact B]]. cbn in A, B |- *.
        destruct (t_fmap2 h fm k) as [[x y]|e]; [|split; [now constructor|exact Q]]. destruct Q as [X Y]. cbn in X, Y |- *.
        destruct u as [u|]; [|now contradiction B].
        destruct (IHm' s x y u Input Ka X Y B) as [E1 E2]. destruct t_mjp as [s' r]. split; [now constructor|exact E2].
      + destruct t_seq_mjp_w as [ks' [[vs u]|e]]; [|split; [now constructor|exact D]]. destruct D as [D1 D2]. cbn in C, D1, D2 |- *.
        destruct u as [u|]; [|now contradiction D2].
        destruct (t_fmap2 h fm k) as [[x y]|e]; [|split; [now constructor|exact Q]]. destruct Q as [X Y]. cbn in X, Y |- *.
        destruct (IHm' s x y u Weight Ka X Y D2) as [E1 E2]. destruct t_mjp as [s' [o|e]]; [|split; [now constructor|exact E2]].
        cbn in E1, E2. assert (V' : Forall good (match o with Some t => t :: vs | None => vs end)) by (destruct o; auto).
        destruct (Nat.eqb k 0); [split; [now constructor|now split]|].
        destruct (IHm' s' x y u Input E1 X Y D2) as [E3 E4]. destruct t_mjp as [s'' r]. split; [now constructor|]. cbn in *.
        eapply fit_bind; [exact E4|]. intros c O. cbn. now split.
  Qed.
  Lemma jacobian_good (m : module K) s x val w : mjp_ok m None -> gs s -> good x -> gopt val ->
    both (tens w) (t_jacobian d dd m s x val w).
  Proof. intros L S0 X V. destruct m as [l|c|h ms|F]; cbn [t_jacobian].
    - split; [exact S0|]. apply leaf_jacobian_good; auto. destruct L as [L|[L|[L [M|M]]]]; [now left|now right|congruence|discriminate].
    - exact (mjp_good (MaxPool c) s x val None w L S0 X V I).
    - now apply mjp_good.
    - now apply mjp_good. Qed.

  (** *** jvp, jmp *)
  Lemma accumulate_good a n : gopt a -> gopt n -> gopt (t_accumulate a n).
  Proof. destruct a, n; cbn; auto using good_add. Qed.
  Section Chain.
    Variable f : module K -> tst -> num -> option num -> option num -> wrt -> tst * res (option num).
    Lemma chain_good ms :
      (forall m, In m ms -> forall s x y v w, gs s -> good x -> good y -> gopt v -> both gopt (f m s x (Some y) v w)) ->
      (forall h ks x fm v, Forall gs ks -> good x -> Forall good fm -> gopt v -> bothf gopt (t_seq_jmp_in d f h ms ks x fm v))
      /\ (forall h ks x fm v a, Forall gs ks -> good x -> Forall good fm -> good v -> gopt a ->
          bothf gopt (t_seq_jmp_w d f h ms ks x fm v a)).
    Proof.
      induction ms as [|m ms IH]; intros Hf; [split; intros; (split; [constructor|now split])|].
      destruct IH as [IH1 IH2]. { intros m' I'. apply Hf. now right. }
      specialize (Hf m (or_introl eq_refl)). split.
      - intros h ks x fm v Ks X Fm V. cbn [t_seq_jmp_in]. destruct (gs_split ks Ks) as [Ka Kb]. destruct (t_split ks) as [k l]. cbn in Ka, Kb.
        destruct (forward_good m k x Ka X) as [A B]. destruct t_forward as [k1 [y|e]]; cbn in A, B; [|split; [now constructor|split; auto]].
        destruct (Hf k1 x y v Input A X B V) as [C D]. destruct f as [k2 [u|e]]; cbn in C, D; [|split; [now constructor|split; cbn; auto using good_push]].
        destruct (IH1 h l y (t_push h fm y) u Kb B (good_push _ _ _ Fm B) D) as (E1 & E2 & E3).
        destruct t_seq_jmp_in as [[ks' fm'] r']. split; [now constructor|split; auto].
      - intros h ks x fm v a Ks X Fm V Aa. cbn [t_seq_jmp_w]. destruct (gs_split ks Ks) as [Ka Kb]. destruct (t_split ks) as [k l]. cbn in Ka, Kb.
        destruct (forward_good m k x Ka X) as [A B]. destruct t_forward as [k1 [y|e]]; cbn in A, B; [|split; [now constructor|split; auto]].
        assert (Q : both gopt (match a with None => (k1, Ok None) | Some b => f m k1 x (Some y) (Some b) Input end)).
        { destruct a as [b|]; [now apply Hf|now split]. }
        destruct Q as [C D]. destruct (match a with None => (k1, Ok None) | Some b => f m k1 x (Some y) (Some b) Input end) as [k2 [u|e]];
          cbn in C, D; [|split; [now constructor|split; cbn; auto using good_push]].
        destruct (Hf k2 x y (Some v) Weight C X B V) as [C' D']. destruct f as [k3 [n|e]]; cbn in C', D'; [|split; [now constructor|split; cbn; auto using good_push]].
        destruct (IH2 h l y (t_push h fm y) v (t_accumulate u n) Kb B (good_push _ _ _ Fm B) V (accumulate_good _ _ D D')) as (E1 & E2 & E3).
        destruct t_seq_jmp_w as [[ks' fm'] r']. split; [now constructor|split; auto].
    Qed.
  End Chain.
  Lemma both_weak {A} (P Q : A -> Prop) q : (forall a, P a -> Q a) -> both P q -> both Q q.
  Proof. intros W [A0 B]. split; [exact A0|]. eapply fit_weak; eauto. Qed.
  Lemma in_or {A} (f : A -> bool) l a (Q : Prop) : Q \/ forallb f l = true -> In a l -> Q \/ f a = true.
  Proof. rewrite forallb_forall. intuition. Qed.

  Lemma jvp_good : forall (m : module K), dd = d \/ plain m = true ->
    forall s x val v w, gs s -> good x -> gopt val -> good v -> both gopt (t_jvp d dd m s x val v w).
  Proof.
    refine (module_ind2 (fun m => dd = d \/ plain m = true -> forall s x val v w, gs s -> good x -> gopt val -> good v ->
        both gopt (t_jvp d dd m s x val v w))
      (fun ms => dd = d \/ forallb plain ms = true ->
        forall m, In m ms -> forall s x y v w, gs s -> good x -> good y -> gopt v -> both gopt (lift (t_jvp d dd) m s x (Some y) v w)) _ _ _ _ _ _).
    - intros l L s x val v w S0 X V G. split; [exact S0|]. eapply fit_weak; [apply tens_gopt|]. now apply leaf_jvp_good.
    - intros c L s x val v w S0 X V G. split; [exact S0|]. apply fit_missing.
    - intros h ms IH L s x val v w S0 X V G. cbn [t_jvp]. destruct (chain_good (lift (t_jvp d dd)) ms (IH L)) as [C1 C2]. destruct w; [| |now split].
      + destruct (C1 h (t_kids s) x (t_fm s) (Some v) (gs_kids _ S0) X (gs_fm _ S0) G) as (A & B & C). destruct t_seq_jmp_in as [[ks fm] r].
        split; [now apply gs_st|exact C].
      + destruct (C2 h (t_kids s) x (t_fm s) v None (gs_kids _ S0) X (gs_fm _ S0) G I) as (A & B & C). destruct t_seq_jmp_w as [[ks fm] r].
        split; [now apply gs_st|exact C].
    - intros F IH L s x val v w S0 X V G. cbn [t_jvp].
      destruct (IH L (t_kid s) x val v w (gs_kid _ S0) X V G) as [A B]. destruct t_jvp as [k r]. cbn in A, B.
      split; [now apply gs_set|]. cbn [snd]. eapply fit_bind; [exact B|]. intros o O. destruct w; gd.
    - intros L m [].
    - intros m ms IHm IHs L m' [<-|I'] s x y v w S0 X Y V; destruct (forallb_or _ _ _ _ L) as [L1 L2]; [|now apply IHs].
      unfold lift. destruct v as [v|]; [|now split]. destruct (IHm L1 s x (Some y) v w S0 X Y V) as [A B]. destruct t_jvp as [k r].
      split; [exact A|]. cbn in B |- *. eapply fit_bind; [exact B|]. intros o O. destruct w, o; cbn in *; auto; discriminate.
  Qed.
  Lemma jmp_good : forall (m : module K), dd = d \/ plain m = true ->
    forall s x val mat w, gs s -> good x -> gopt val -> gopt mat -> both gopt (t_jmp d dd m s x val mat w).
  Proof.
    assert (J : forall (m : module K) s x val w, dd = d \/ plain m = true -> gs s -> good x -> gopt val -> both gopt (t_jacobian d dd m s x val w)).
    { intros m s x val w L S0 X V. eapply both_weak; [apply tens_gopt|]. apply jacobian_good; auto. destruct L; [now left|right; now left]. }
    refine (module_ind2 (fun m => dd = d \/ plain m = true -> forall s x val mat w, gs s -> good x -> gopt val -> gopt mat ->
        both gopt (t_jmp d dd m s x val mat w))
      (fun ms => dd = d \/ forallb plain ms = true ->
        forall m, In m ms -> forall s x y v w, gs s -> good x -> good y -> gopt v -> both gopt (t_jmp d dd m s x (Some y) v w)) _ _ _ _ _ _).
    - intros l L s x val v w S0 X V G. split; [exact S0|]. eapply fit_weak; [apply tens_gopt|]. now apply leaf_jmp_good.
    - intros c [L|L]; [|discriminate]. intros s x val mat w S0 X V G. split; [exact S0|]. cbn [t_jmp snd].
      destruct mat, w; cbn [t_pool_jacobian]; gd. now apply good_default.
    - intros h ms IH L s x val mat w S0 X V G. cbn [t_jmp]. destruct (chain_good (t_jmp d dd) ms (IH L)) as [C1 C2].
      destruct w; cbn [wrt_ok]; [| |now split]; (destruct mat as [mt|]; [|now apply J]).
      + destruct (C1 h (t_kids s) x (t_fm s) (Some mt) (gs_kids _ S0) X (gs_fm _ S0) G) as (A & B & C). destruct t_seq_jmp_in as [[ks fm] r].
        split; [now apply gs_st|exact C].
      + destruct (C2 h (t_kids s) x (t_fm s) mt None (gs_kids _ S0) X (gs_fm _ S0) G I) as (A & B & C). destruct t_seq_jmp_w as [[ks fm] r].
        split; [now apply gs_st|exact C].
    - intros F IH L s x val mat w S0 X V G. cbn [t_jmp]. destruct mat as [mt|]; [|now apply J].
      destruct (IH L (t_kid s) x val (Some mt) w (gs_kid _ S0) X V G) as [A B]. destruct t_jmp as [k r]. cbn in A, B.
      split; [now apply gs_set|]. cbn [snd]. eapply fit_bind; [exact B|]. intros o O. cbn in G. destruct w; gd.
    - intros L m [].
    - intros m ms IHm IHs L m' [<-|I'] s x y v w S0 X Y V; destruct (forallb_or _ _ _ _ L) as [L1 L2]; [|now apply IHs].
      now apply IHm.
  Qed.

  (** *** jmjTp, jTmjp *)
  Lemma gv_of o : gopt o -> gv (t_of_opt o). Proof. destruct o; constructor; auto. Qed.
  Lemma fit_to_opt v : gv v -> fit gopt (t_to_opt v). Proof. destruct 1; cbn; auto; discriminate. Qed.
  Lemma fit_to_tensor v : gv v -> fit good (t_to_tensor v). Proof. destruct 1; cbn; auto; discriminate. Qed.
  Lemma gv_like x mat fd : good x -> gv mat ->
    exists v fd', match mat with TN => (TT (like x), true) | v => (v, fd) end = (v, fd') /\ gv v.
  Proof. intros X []; eauto 6 using gv_tensor, gv_list, good_like. Qed.
  Lemma blocks_good (ms : list (module K)) t : good t -> Forall gv (t_blocks ms t).
  Proof. intros G. induction ms as [|m ms IH]; cbn; [constructor|]. destruct (Nat.eqb _ 0); auto using gv_tensor. Qed.

  Lemma jmjTp_good : forall (m : module K), dd = d \/ plain m = true ->
    forall s x val mat w fd td db, gs s -> good x -> gopt val -> gv mat -> both gv (t_jmjTp d dd m s x val mat w fd td db).
  Proof.
    refine (module_ind2 (fun m => dd = d \/ plain m = true -> forall s x val mat w fd td db, gs s -> good x -> gopt val -> gv mat ->
        both gv (t_jmjTp d dd m s x val mat w fd td db))
      (fun ms => dd = d \/ forallb plain ms = true -> forall h fm ks k fd td db, Forall good fm -> Forall gs ks ->
        (forall v, gv v -> boths gv (t_seq_jmjTp_in (t_jmjTp d dd) h fm ms ks k v fd td db))
        /\ (forall bs a, Forall gv bs -> gv a -> boths gv (t_seq_jmjTp_w (t_jmjTp d dd) h fm ms ks k bs a fd td db))) _ _ _ _ _ _).
    - intros l L s x val mat w fd td db S0 X V G. split; [exact S0|]. cbn [t_jmjTp snd].
      apply (fit_bind gopt); [now apply fit_to_opt|]. intros mt M. apply (fit_bind gopt); [now apply leaf_jmjTp_good|].
      intros o O. apply fit_ok. now apply gv_of.
    - intros c L s x val mat w fd td db S0 X V G. split; [exact S0|]. destruct w; cbn; try discriminate; constructor.
    - intros h ms IH L s x val mat w fd td db S0 X V G. specialize (IH L). cbn [t_jmjTp]. destruct (db_ok fd td db); [|now split].
      destruct (ensure_good (Seq h ms) s x val S0 X V) as [A B]; destruct t_ensure as [s' [y|e]]; [|now split]; cbn in A, B.
      destruct (gv_like x mat fd X G) as (v & fd' & -> & Gv).
      destruct (IH h (t_fm s') (t_kids s') 0 fd' td db (gs_fm _ A) (gs_kids _ A)) as [C1 C2]. destruct w.
      + destruct (C1 v Gv) as [C D]. destruct t_seq_jmjTp_in as [ks r]. split; [apply gs_st; [now apply gs_fm|exact C]|exact D].
      + match goal with |- context [t_seq_jmjTp_w _ _ _ _ _ _ ?l] => set (bs := l) end.
        assert (Bs : Forall gv bs). { unfold bs. destruct Gv; auto using blocks_good. }
        destruct (C2 bs TN Bs (gv_none _)) as [C D]. destruct t_seq_jmjTp_w as [ks r]. split; [apply gs_st; [now apply gs_fm|exact C]|exact D].
      + split; [exact A|constructor].
    - intros F IH L s x val mat w fd td db S0 X V G. specialize (IH L). cbn [t_jmjTp]. destruct (db_ok fd td db); [|now split].
      destruct (ensure_good (Skip F) s x val S0 X V) as [A B]; destruct t_ensure as [s1 [y|e]]; [|now split]; cbn in A, B.
      destruct (IH (t_kid s1) x (Some y) mat w fd td db (gs_kid _ A) X B G) as [C D]. destruct t_jmjTp as [k [j|e]]; cbn in C, D; [|split; [now apply gs_set|exact D]].
      pose proof (gs_set _ _ A C) as A2. set (s2 := t_set_kid s1 k) in *. pose proof (fit_to_tensor _ D) as TJ.
      destruct w; [|split; [exact A2|cbn [snd]; apply (fit_bind good); [exact TJ|intros]; apply fit_ok; constructor; gd]|split; [exact A2|constructor]].
      pose proof (fit_to_tensor _ G) as TM. destruct (t_to_tensor mat) as [mt|e]; [|now split]. cbn in TM.
      destruct td; [split; [exact A2|cbn [snd]; apply (fit_bind good); [exact TJ|intros]; apply fit_ok; constructor; gd]|].
      destruct (jmp_good F L (t_kid s2) x (Some y) (Some mt) Input (gs_kid _ A2) X B TM) as [E1 E2]. destruct t_jmp as [k3 r3]. cbn in E1, E2.
      pose proof (gs_set _ _ A2 E1) as A3. set (s3 := t_set_kid s2 k3) in *.
      assert (TK : fit good (jm <- r3 ;; need jm)) by (eapply fit_bind; [exact E2|intros; now apply fit_need]).
      destruct (jm <- r3 ;; need jm) as [jm|e]; [|now split]. cbn in TK.
      destruct fd; [split; [exact A3|cbn [snd]; apply (fit_bind good); [exact TJ|intros]; apply fit_ok; constructor; gd]|].
      destruct (jmp_good F L (t_kid s3) x (Some y) (Some mt) Input (gs_kid _ A3) X B TM) as [E3 E4]. destruct t_jmp as [k4 r4]. cbn in E3, E4.
      split; [now apply gs_set|]. cbn [snd]. apply (fit_bind gopt); [exact E4|intros o O]. apply (fit_bind good); [now apply fit_need|intros].
      apply (fit_bind good); [exact TJ|intros]. apply fit_ok. constructor; gd.
    - intros L h fm ks k fd td db Fm Ks. split; intros; (split; cbn; auto).
    - intros m ms IHm IHs L h fm ks k fd td db Fm Ks. destruct (forallb_or _ _ _ _ L) as [L1 L2]. specialize (IHm L1). specialize (IHs L2).
      cbn [t_seq_jmjTp_in t_seq_jmjTp_w]. destruct (gs_split ks Ks) as [Ka Kb]. destruct (t_split ks) as [s l]. cbn in Ka, Kb.
      destruct (IHs h fm l (S k) fd td db Fm Kb) as [S1 S2]. pose proof (fit_fmap2 h fm k Fm) as Q. split.
      + intros v Gv. destruct (t_fmap2 h fm k) as [[x y]|e]; [|split; [now constructor|exact Q]]. destruct Q as [X Y]. cbn in X, Y.
        match goal with |- context [t_jmjTp _ _ _ _ _ _ _ _ ?a ?b _] => destruct (IHm s x (Some y) v Input a b db Ka X Y Gv) as [A B] end.
        destruct t_jmjTp as [s' [u|e]]; cbn in A, B; [|split; [now constructor|exact B]].
        destruct (S1 u B) as [C D]. destruct t_seq_jmjTp_in as [ks' r]. split; [now constructor|exact D].
      + intros bs a Bs Ga. cbv zeta. set (td' := match ms with [] => td | _ => db end).
        assert (Z : both gv (match a with TN => (s, Ok TN) | a => match t_fmap2 h fm k with Raise e => (s, Raise e)
                    | Ok (x, y) => t_jmjTp d dd m s x (Some y) a Input db td' db end end)).
        { destruct Ga as [|n Gn|li Gl]; [split; [exact Ka|constructor]| |];
            (destruct (t_fmap2 h fm k) as [[x y]|e]; [|now split]; destruct Q as [X Y]; apply IHm; auto; now constructor). }
        destruct Z as [A B]. destruct (match a with TN => (s, Ok TN) | a => match t_fmap2 h fm k with Raise e => (s, Raise e)
                    | Ok (x, y) => t_jmjTp d dd m s x (Some y) a Input db td' db end end) as [s1 [u|e]]; cbn in A, B; [|split; [now constructor|exact B]].
        destruct (Nat.eqb (n_params m) 0).
        { destruct (S2 bs u Bs B) as [C D]. destruct t_seq_jmjTp_w as [ks' r]. split; [now constructor|exact D]. }
        destruct (t_fmap2 h fm k) as [[x y]|e]; [|split; [now constructor|exact Q]]. destruct Q as [X Y]. cbn in X, Y |- *.
        destruct Bs as [|b bs Gb Bs]; [split; [now constructor|discriminate]|].
        destruct (IHm s1 x (Some y) b Weight fd td' db A X Y Gb) as [C D]. destruct t_jmjTp as [s2 r]. cbn in C, D.
        assert (R : fit gopt (new <- r ;; new <- t_to_opt new ;; a <- t_to_opt u ;; Ok (t_accumulate a new))).
        { eapply fit_bind; [exact D|intros n N0]. apply (fit_bind gopt); [now apply fit_to_opt|intros n' N']. apply (fit_bind gopt); [now apply fit_to_opt|intros].
          apply fit_ok. now apply accumulate_good. }
        destruct (new <- r ;; new <- t_to_opt new ;; a <- t_to_opt u ;; Ok (t_accumulate a new)) as [o|e]; [|split; [now constructor|exact R]].
        destruct (S2 bs (t_of_opt o) Bs (gv_of _ R)) as [E F]. destruct t_seq_jmjTp_w as [ks' r']. split; [now constructor|exact F].
  Qed.

  Lemma mapM_good vs : Forall gv vs -> fit (Forall good) (mapM t_to_tensor vs).
  Proof. induction 1 as [|v vs V _ IH]; cbn; [constructor|]. apply (fit_bind good); [now apply fit_to_tensor|intros]. eapply fit_bind; [exact IH|intros].
    cbn. now constructor. Qed.
  Lemma jTmjp_good : forall (m : module K), dd = d \/ backward m = true ->
    forall s x val mat w fd td db, gs s -> good x -> gopt val -> gv mat -> both gv (t_jTmjp d dd m s x val mat w fd td db).
  Proof.
    refine (module_ind2 (fun m => dd = d \/ backward m = true -> forall s x val mat w fd td db, gs s -> good x -> gopt val -> gv mat ->
        both gv (t_jTmjp d dd m s x val mat w fd td db))
      (fun ms => dd = d \/ forallb backward ms = true -> forall h fm ks k v fd td db, Forall good fm -> Forall gs ks -> gv v ->
        boths gv (t_seq_jTmjp_in (t_jTmjp d dd) h fm ms ks k v fd td db)
        /\ boths (fun a => Forall gv (fst a) /\ gv (snd a)) (t_seq_jTmjp_w (t_jTmjp d dd) h fm ms ks k v fd td db)) _ _ _ _ _ _).
    - intros l L s x val mat w fd td db S0 X V G. split; [exact S0|]. cbn [t_jTmjp snd].
      apply (fit_bind gopt); [now apply fit_to_opt|]. intros mt M. apply (fit_bind gopt); [now apply leaf_jTmjp_good|].
      intros o O. apply fit_ok. now apply gv_of.
    - intros c [L|L]; [|discriminate]. intros s x val mat w fd td db S0 X V G. split; [exact S0|]. cbn [t_jTmjp snd].
      apply (fit_bind gopt); [now apply fit_to_opt|]. intros mt M.
      assert (Y : good (match val with Some v => v | None => x end)) by (destruct val; auto).
      apply (fit_bind gopt); [|intros o O; apply fit_ok; now apply gv_of]. unfold t_pool_jTmjp.
      assert (Z : exists m' fd', match mt with Some m => (m, fd) | None => (like (match val with Some v => v | None => x end), true) end = (m', fd') /\ good m').
      { destruct mt; eauto using good_like. }
      destruct Z as (m' & fd' & -> & M'). destruct w; [|exact I|exact I]. rewrite L, (proj1 X). destruct (fd' && td)%bool; gd.
    - intros h ms IH L s x val mat w fd td db S0 X V G. specialize (IH L). cbn [t_jTmjp]. destruct (db_ok fd td db); [|now split].
      destruct (ensure_good (Seq h ms) s x val S0 X V) as [A B]; destruct t_ensure as [s' [y|e]]; [|now split]; cbn in A, B.
      destruct (gv_like x mat fd X G) as (v & fd' & -> & Gv).
      destruct (IH h (t_fm s') (t_kids s') 0 v fd' td db (gs_fm _ A) (gs_kids _ A) Gv) as [[C1 C2] [D1 D2]]. destruct w.
      + destruct t_seq_jTmjp_in as [ks r]. split; [apply gs_st; [now apply gs_fm|exact C1]|]. cbn [snd] in *. eapply fit_bind; [exact C2|auto].
      + destruct t_seq_jTmjp_w as [ks r]. split; [apply gs_st; [now apply gs_fm|exact D1]|]. cbn [snd] in *.
        eapply fit_bind; [exact D2|]. intros [vs u] [E _]. cbn in E |- *. destruct vs as [|v1 vs]; [constructor|].
        destruct td; [|constructor; exact E]. eapply fit_bind; [now apply mapM_good|]. intros ts T0. apply fit_ok. apply gv_of. now apply good_cat.
      + destruct t_seq_jTmjp_in as [ks r]. split; [apply gs_st; [now apply gs_fm|exact C1]|]. cbn [snd] in *. eapply fit_bind; [exact C2|intros; constructor].
    - intros F IH L s x val mat w fd td db S0 X V G. specialize (IH L). cbn [t_jTmjp]. destruct (db_ok fd td db); [|now split].
      destruct (ensure_good (Skip F) s x val S0 X V) as [A B]; destruct t_ensure as [s1 r]; cbn in A, B.
      match goal with |- context [match ?e with Ok _ => _ | Raise _ => _ end] => assert (Z : fit (fun q => good (fst (fst q)) /\ good (snd (fst q))) e) end.
      { apply (fit_bind good); [exact B|intros y Y]. destruct G; cbn; auto using good_like. discriminate. }
      match goal with |- context [match ?e with Ok _ => _ | Raise _ => _ end] => destruct e as [[[y mt] fd']|e'] end; [|now split].
      destruct Z as [Y M]. cbn in Y, M.
      destruct (IH (t_kid s1) x (Some y) (TT mt) w fd' td db (gs_kid _ A) X Y (gv_tensor _ _ M)) as [C D]. destruct t_jTmjp as [k [j|e]]; cbn in C, D; [|split; [now apply gs_set|exact D]].
      pose proof (gs_set _ _ A C) as A2. set (s2 := t_set_kid s1 k) in *. pose proof (fit_to_tensor _ D) as TJ.
      destruct w; [|split; [exact A2|exact D]|split; [exact A2|constructor]].
      destruct fd'; [split; [exact A2|cbn [snd]; apply (fit_bind good); [exact TJ|intros]; apply fit_ok; constructor; gd]|].
      assert (L' : mjp_ok F (Some mt)). { destruct L as [L|L]; [now left|right; right]. split; [exact L|left; discriminate]. }
      destruct (mjp_good F (t_kid s2) x (Some y) (Some mt) Input L' (gs_kid _ A2) X Y M) as [E1 E2]. destruct t_mjp as [k3 r3]. cbn in E1, E2.
      pose proof (gs_set _ _ A2 E1) as A3. set (s3 := t_set_kid s2 k3) in *.
      assert (TK : fit good (jm <- r3 ;; need jm)) by (eapply fit_bind; [exact E2|intros; apply fit_need; eauto using tens_gopt]).
      destruct (jm <- r3 ;; need jm) as [jm|e]; [|now split]. cbn in TK.
      destruct (mjp_good F (t_kid s3) x (Some y) (Some mt) Input L' (gs_kid _ A3) X Y M) as [E3 E4]. destruct t_mjp as [k4 r4]. cbn in E3, E4.
      split; [now apply gs_set|]. cbn [snd]. eapply fit_bind; [exact E4|intros o O]. apply (fit_bind good); [apply fit_need; eauto using tens_gopt|intros].
      apply (fit_bind good); [exact TJ|intros]. apply fit_ok. constructor; gd.
    - intros L h fm ks k v fd td db Fm Ks Gv. split; split; cbn; auto.
    - intros m ms IHm IHs L h fm ks k v fd td db Fm Ks Gv. destruct (forallb_or _ _ _ _ L) as [L1 L2]. specialize (IHm L1). specialize (IHs L2).
      cbn [t_seq_jTmjp_in t_seq_jTmjp_w]. destruct (gs_split ks Ks) as [Ka Kb]. destruct (t_split ks) as [s l]. cbn in Ka, Kb.
      destruct (IHs h fm l (S k) v fd td db Fm Kb Gv) as [[A B] [C D]]. pose proof (fit_fmap2 h fm k Fm) as Q. split.
      + destruct t_seq_jTmjp_in as [ks' [u|e]]; [|split; [now constructor|exact B]]. cbn in A, B |- *.
        destruct (t_fmap2 h fm k) as [[x y]|e]; [|split; [now constructor|exact Q]]. destruct Q as [X Y]. cbn in X, Y |- *.
        match goal with |- context [t_jTmjp _ _ _ _ _ _ _ _ ?a ?b _] => destruct (IHm s x (Some y) u Input a b db Ka X Y B) as [E1 E2] end.
        destruct t_jTmjp as [s' r]. split; [now constructor|exact E2].
      + destruct t_seq_jTmjp_w as [ks' [[vs u]|e]]; [|split; [now constructor|exact D]]. destruct D as [D1 D2]. cbn in C, D1, D2 |- *.
        destruct (t_fmap2 h fm k) as [[x y]|e]; [|split; [now constructor|exact Q]]. destruct Q as [X Y]. cbn in X, Y |- *.
        match goal with |- context [t_jTmjp _ _ _ _ _ _ _ Weight ?a td _] => destruct (IHm s x (Some y) u Weight a td db Ka X Y D2) as [E1 E2] end.
        destruct t_jTmjp as [s' [o|e]]; [|split; [now constructor|exact E2]].
        cbn in E1, E2. assert (V' : Forall gv (match o with TN => vs | t => t :: vs end)) by (destruct o; auto).
        destruct (Nat.eqb k 0); [split; [now constructor|now split]|].
        match goal with |- context [t_jTmjp _ _ _ _ _ _ _ Input ?a _ _] => destruct (IHm s' x (Some y) u Input a db db E1 X Y D2) as [E3 E4] end.
        destruct t_jTmjp as [s'' r]. split; [now constructor|]. cbn in *. eapply fit_bind; [exact E4|]. intros c O. cbn. now split.
  Qed.
End P.
