(** Exactly which networks fail or lose precision outside torch's default dtype, for vjp. *)
From Coq Require Import List Arith Bool Lia.
From Verif Require Import Scalar Tensor Conv Abstract Simple LinearLayer ConvLayer PoolLayer Module TreeBase Dtype DtypeSpec DtypeProofs.
Import ListNotations.
Local Open Scope nat_scope.

Section P.
  Context {K} `{Num K}.
  Variables d dd : dtype.
  Notation good := (good d). Notation gopt := (good_opt d). Notation bad := (bad d).
  Notation spoils := (spoils d dd). Notation lossy := (lossy d dd).

  Ltac sp := repeat match goal with |- _ /\ _ => split end.
  Lemma dle_trans a b c : dle a b = true -> dle b c = true -> dle a c = true.
  Proof. now destruct a, b, c. Qed.
  Lemma elem_dt_l a b : dle (dt a) (dt (elem a b)) = true.
  Proof. destruct a as [u ?], b as [v ?]; now destruct u, v. Qed.
  Lemma elem_dt_r a b : dle (dt b) (dt (elem a b)) = true.
  Proof. destruct a as [u ?], b as [v ?]; now destruct u, v. Qed.
  Lemma elem_acc_l a b : dle (acc (elem a b)) (acc a) = true.
  Proof. destruct a as [u c], b as [v e]; now destruct u, v, c, e. Qed.
  Lemma elem_acc_r a b : dle (acc (elem a b)) (acc b) = true.
  Proof. destruct a as [u c], b as [v e]; now destruct u, v, c, e. Qed.
  Lemma bad_le a b : bad a -> dle (dt a) (dt b) = true -> dle (acc b) (acc a) = true -> bad b.
  Proof. intros [B|B] D A; [left|right].
    - destruct (dle (dt b) d) eqn:E; auto. now rewrite (dle_trans _ _ _ D E) in B.
    - destruct (dle d (acc b)) eqn:E; auto. now rewrite (dle_trans _ _ _ E A) in B. Qed.
  Lemma bad_elem_l a b : bad a -> bad (elem a b). Proof. intros B. exact (bad_le _ _ B (elem_dt_l a b) (elem_acc_l a b)). Qed.
  Lemma bad_elem_r a b : bad b -> bad (elem a b). Proof. intros B. exact (bad_le _ _ B (elem_dt_r a b) (elem_acc_r a b)). Qed.
  Lemma bad_biased {B} (b : option B) e a : bad e -> bad (biased b e a).
  Proof. destruct b; cbn; auto using bad_elem_l. Qed.
  Lemma bad_cats l : forall a, bad a \/ Exists bad l -> bad (cats a l).
  Proof. unfold cats. induction l as [|b l IH]; intros a [A|L]; cbn; auto.
    - inversion L.
    - apply IH. left. now apply bad_elem_l.
    - apply IH. inversion L; subst; [left; now apply bad_elem_r|now right]. Qed.
  Lemma bad_assign a : dtype_eqb d dd = false -> bad (assign dd a).
  Proof. destruct a as [u c], d, dd, c; cbn; intros E; try discriminate; unfold DtypeSpec.bad; cbn; auto. Qed.
  (** a good tensor is not bad *)
  Lemma good_bad n : good n -> ~ bad n.
  Proof. intros [E A] [B|B]; [|congruence]. rewrite E in B. now destruct d. Qed.

  (** the state right after a forward pass *)
  Section Ready.
    Variable f : module K -> tst -> Prop.
    Fixpoint readys (ms : list (module K)) (ks : list tst) : Prop :=
      match ms with [] => True | m :: ms => f m (fst (t_split ks)) /\ readys ms (snd (t_split ks)) end.
  End Ready.
  Fixpoint ready (m : module K) (s : tst) : Prop :=
    match m with
    | Leaf _ | MaxPool _ => True
    | Seq h ms => length (t_fm s) = S (length ms) /\ Forall good (t_fm s) /\ readys ready ms (t_kids s)
    | Skip F => ready F (t_kid s)
    end.

  Lemma leaf_forward_ok (l : leaf K) x : good x -> exists y, t_leaf_forward d l x = Ok y /\ good y.
  Proof. intros X. assert (P := good_par d). destruct l; cbn [t_leaf_forward]; unfold t_lin_forward; eauto.
    - rewrite (contract_ok d x (par d)) by auto. eauto using good_elem.
    - rewrite (contract_ok d x (par d)) by auto. eauto using good_elem.
    - eauto using good_elem. Qed.
  Lemma forward_ready : forall (m : module K), hooked m = true -> forall s x, good x ->
    exists s' y, t_forward d m s x = (s', Ok y) /\ good y /\ ready m s'.
  Proof.
    refine (module_ind2 (fun m => hooked m = true -> forall s x, good x ->
        exists s' y, t_forward d m s x = (s', Ok y) /\ good y /\ ready m s')
      (fun ms => forallb hooked ms = true -> forall ks x fm, good x -> Forall good fm ->
        exists ks' fm' y, t_seq_forward (t_forward d) true ms ks x fm = (ks', fm', Ok y) /\ good y /\ Forall good fm'
          /\ length fm' = length fm + length ms /\ readys ready ms ks') _ _ _ _ _ _).
    - intros l _ s x X. destruct (leaf_forward_ok l x X) as (y & E & Y). exists s, y. cbn. now rewrite E.
    - intros c _ s x X. exists s, x. now cbn.
    - intros h ms IH Hh s x X. cbn [hooked] in Hh. apply andb_true_iff in Hh. destruct Hh as [-> Hh]. cbn [t_forward].
      destruct (IH Hh (t_kids s) x [x] X) as (ks' & fm' & y & E & Y & F & L & R). { now constructor. }
      rewrite E. exists (TSt fm' ks'), y. cbn. sp; auto.
    - intros F IH Hh s x X. cbn [t_forward]. destruct (IH Hh (t_kid s) x X) as (s' & y & E & Y & R). rewrite E.
      exists (t_set_kid s s'), (elem x y). cbn. sp; auto using good_elem; now apply good_elem.
    - intros _ ks x fm X F. exists [], fm, x. cbn. sp; cbn; auto.
    - intros m ms IHm IHs Hh ks x fm X F. cbn [forallb] in Hh. apply andb_true_iff in Hh. destruct Hh as [H1 H2].
      cbn [t_seq_forward]. destruct (t_split ks) as [k l]. destruct (IHm H1 k x X) as (k' & y & E & Y & R). rewrite E.
      destruct (IHs H2 l y (t_push true fm y) Y) as (ks' & fm' & z & E' & Z & F' & L & R'). { cbn. apply Forall_app; auto. }
      rewrite E'. exists (k' :: ks'), fm', z. sp; auto; [|cbn; auto]. cbn in L |- *. rewrite L, app_length. cbn. lia.
  Qed.

  Definition wpost (b : bool) (o : option num) : Prop :=
    match o with None => b = false | Some n => if b then bad n else good n end.
  Lemma fmap2_ok fm k n : Forall good fm -> length fm = S (k + S n) -> exists x y, t_fmap2 true fm k = Ok (x, y) /\ good x /\ good y.
  Proof. intros F L. unfold t_fmap2, t_fmap_at.
    destruct (nth_error fm k) as [x|] eqn:E; [|apply nth_error_None in E; lia]. cbn [bind].
    destruct (nth_error fm (S k)) as [y|] eqn:E'; [|apply nth_error_None in E'; lia]. cbn [bind].
    rewrite Forall_forall in F. exists x, y. sp; [reflexivity|..]; apply F; eauto using nth_error_In. Qed.

  Lemma neqb_false a b : dtype_eqb a b = false -> dtype_eqb b a = false. Proof. now destruct a, b. Qed.
  Definition spoiled (b : bool) (r : res (option num)) : Prop :=
    if b then r = Raise RuntimeError else exists n, r = Ok (Some n) /\ good n.
  Lemma some_contract a b : good a -> good b -> exists n, some (contract a b) = Ok (Some n) /\ good n.
  Proof. intros A B. rewrite (contract_ok d) by auto. cbn. eauto using good_elem. Qed.
  Lemma contract_fail a b : dt a <> dt b -> contract a b = Raise RuntimeError.
  Proof. intros N. unfold contract. destruct (dtype_eqb (dt a) (dt b)) eqn:E; auto. apply eqb_iff in E. congruence. Qed.
  Lemma leaf_vjp_in (l : leaf K) x val v : good x -> gopt val -> good v ->
    spoiled (spoils (Leaf l)) (t_leaf_vjp d dd l x val v Input).
  Proof. intros X V G. assert (P := good_par d). destruct l; cbn [t_leaf_vjp DtypeSpec.spoils].
    - now apply some_contract.
    - unfold t_conv_back. destruct val as [y|]; cbn [t_conv_val bind]; [now apply some_contract|].
      rewrite (contract_ok d x (par d)) by auto. now apply some_contract.
    - pose proof (ad_product d a x val v Input X V G) as A. destruct t_ad_product; [cbn; eauto|now contradiction A].
    - cbn. eauto.
    - cbn. eauto.
    - cbn [t_l2_jacobian t_aj_product bind]. destruct (dle dd d) eqn:E; cbn [negb spoiled].
      + apply some_contract; auto. apply good_elem; auto. apply good_promote; auto using good_elem.
      + unfold t_aj_product. cbn [bind]. rewrite contract_fail; [reflexivity|]. destruct X as [X _], G as [G _].
        cbn [dt elem default]. rewrite X, G. clear -E; destruct d, dd; try discriminate E; cbn; discriminate.
    - cbn [t_up_back]. destruct (dtype_eqb d dd) eqn:E; cbn [negb spoiled].
      + apply eqb_iff in E. apply some_contract; auto. now apply good_default.
      + rewrite contract_fail; [reflexivity|]. destruct G as [G _]. rewrite G. cbn. intros C. rewrite C, eqb_refl in E. discriminate.
    - cbn. now apply some_contract. Qed.
  Lemma leaf_vjp_w (l : leaf K) x val v : good x -> gopt val -> good v ->
    exists o, t_leaf_vjp d dd l x val v Weight = Ok o /\ wpost (lossy (Leaf l)) o.
  Proof. intros X V G. assert (P := good_par d). destruct l; cbn [t_leaf_vjp DtypeSpec.lossy]; try (exists None; now split).
    - cbn. eexists. split; [reflexivity|]. apply good_biased; auto using good_elem.
    - assert (E : t_conv_back d dd cfg bias x val v Weight = Ok (Some (biased bias (loop dd cfg (elem v x)) v))).
      { unfold t_conv_back. destruct val as [y|]; cbn [t_conv_val bind]; rewrite ?(contract_ok d x (par d)) by auto; cbn [bind];
        now rewrite (contract_ok d v x) by auto. }
      rewrite E. eexists. split; [reflexivity|]. cbn [wpost]. unfold loop. destruct (cvmap cfg); cbn [negb andb].
      + apply good_biased; auto using good_elem.
      + destruct (dtype_eqb d dd) eqn:Q; cbn [negb].
        * apply eqb_iff in Q. subst dd. apply good_biased; auto. apply good_assign. now apply good_elem.
        * apply bad_biased. now apply bad_assign. Qed.

  Lemma vjp_exact : forall (m : module K), hooked m = true ->
    forall s x val v, good x -> gopt val -> good v -> (val = None \/ ready m s) ->
    (spoils m = true -> snd (t_vjp d dd m s x val v Input) = Raise RuntimeError)
    /\ (spoils m = false ->
        (exists s' n, t_vjp d dd m s x val v Input = (s', Ok (Some n)) /\ good n /\ ready m s')
        /\ (exists s' o, t_vjp d dd m s x val v Weight = (s', Ok o) /\ wpost (lossy m) o /\ ready m s')).
  Proof.
    refine (module_ind2 (fun m => hooked m = true ->
      forall s x val v, good x -> gopt val -> good v -> (val = None \/ ready m s) ->
      (spoils m = true -> snd (t_vjp d dd m s x val v Input) = Raise RuntimeError)
      /\ (spoils m = false ->
          (exists s' n, t_vjp d dd m s x val v Input = (s', Ok (Some n)) /\ good n /\ ready m s')
          /\ (exists s' o, t_vjp d dd m s x val v Weight = (s', Ok o) /\ wpost (lossy m) o /\ ready m s')))
      (fun ms => forallb hooked ms = true -> forall fm ks k v, Forall good fm -> length fm = S (k + length ms) -> readys ready ms ks -> good v ->
        (existsb spoils ms = true -> snd (t_seq_vjp_in (t_vjp d dd) true fm ms ks k v) = Raise RuntimeError)
        /\ (existsb spoils ms = false ->
          (exists ks' n, t_seq_vjp_in (t_vjp d dd) true fm ms ks k v = (ks', Ok n) /\ good n /\ readys ready ms ks')
          /\ (exists ks' vs n, t_seq_vjp_w (t_vjp d dd) true fm ms ks k v = (ks', Ok (vs, n)) /\ good n /\ readys ready ms ks'
              /\ (if existsb lossy ms then Exists bad vs else Forall good vs)))) _ _ _ _ _ _).
    - intros l _ s x val v X V G _. pose proof (leaf_vjp_in l x val v X V G) as A. pose proof (leaf_vjp_w l x val v X V G) as B.
      cbn [t_vjp]. split; intros E; rewrite E in A; cbn in A; [exact A|]. destruct A as (n & A & N), B as (o & B & O).
      split; [exists s, n; rewrite A|exists s, o; rewrite B]; sp; cbn; auto.
    - intros c _ s x val v X V G _. cbn [t_vjp snd DtypeSpec.spoils DtypeSpec.lossy]. destruct (dtype_eqb d dd) eqn:E; cbn [negb]; split; try discriminate; intros _.
      + apply eqb_iff in E. subst dd. split; [|exists s, None; now cbn]. exists s, (assign d v). unfold some. rewrite (put_ok d) by auto. cbn.
        sp; cbn; auto using good_assign.
      + unfold put. destruct G as [G _]. rewrite G, E. reflexivity.
    - intros h ms IH Hh s x val v X V G R. cbn [hooked] in Hh. apply andb_true_iff in Hh. destruct Hh as [-> Hh].
      assert (Q : exists s' y, t_ensure d (Seq true ms) s x val = (s', Ok y) /\ ready (Seq true ms) s').
      { destruct val as [y|]; [exists s, y; destruct R; [discriminate|now split]|].
        destruct (forward_ready (Seq true ms)) with (s := s) (x := x) as (s' & y & E & _ & R'); auto. 
        exists s', y. now split. }
      destruct Q as (s' & y & E & R1 & R2 & R3). clear R.
      destruct (IH Hh (t_fm s') (t_kids s') 0 v R2 R1 R3 G) as [I1 I2].
      cbn [t_vjp wrt_ok DtypeSpec.spoils DtypeSpec.lossy]. rewrite E. split; intros Sp.
      + specialize (I1 Sp). destruct t_seq_vjp_in as [ks r]. cbn in I1 |- *. now rewrite I1.
      + destruct (I2 Sp) as [(ks & n & A1 & A2 & A3) (ks' & vs & n' & B1 & B2 & B3 & B4)]. rewrite A1, B1. split.
        * exists (TSt (t_fm s') ks), n. cbn. sp; cbn; auto.
        * exists (TSt (t_fm s') ks'), (t_cat vs). cbn [bind]. split; [reflexivity|]. split; [|cbn; auto].
          destruct (existsb lossy ms).
          -- inversion B4; subst; cbn; apply bad_cats; auto.
          -- destruct vs as [|a vs]; [reflexivity|]. inversion B4; subst. cbn. now apply good_cats.
    - intros F IH Hh s x val v X V G R. destruct (IH Hh (t_kid s) x val v X V G) as [I1 I2]. { destruct R; auto. }
      cbn [t_vjp DtypeSpec.spoils DtypeSpec.lossy]. split; intros Sp.
      + specialize (I1 Sp). destruct t_vjp as [k r]. cbn in I1 |- *. now rewrite I1.
      + destruct (I2 Sp) as [(k & n & A1 & A2 & A3) (k' & o & B1 & B2 & B3)]. rewrite A1, B1. split.
        * exists (t_set_kid s k), (elem v n). cbn. sp; cbn; auto using good_elem.
        * exists (t_set_kid s k'), o. cbn. auto.
    - intros _ fm ks k v F L R G. cbn. split; [discriminate|]. intros _. split; [exists [], v|exists [], [], v]; sp; cbn; auto.
    - intros m ms IHm IHs Hh fm ks k v F L R G. cbn [forallb] in Hh. apply andb_true_iff in Hh. destruct Hh as [H1 H2].
      cbn [t_seq_vjp_in t_seq_vjp_w existsb]. cbn [readys] in R. destruct (t_split ks) as [s l]. cbn [fst snd] in R. destruct R as [R1 R2].
      cbn [length] in L.
      destruct (IHs H2 fm l (S k) v F) as [I1 I2]; auto; [lia|]. destruct (fmap2_ok fm k (length ms) F L) as (x & y & EQ & X & Y).
      rewrite EQ. split; intros Sp.
      + destruct (existsb spoils ms) eqn:Es.
        * specialize (I1 eq_refl). destruct t_seq_vjp_in as [ks' r]. cbn in I1. now rewrite I1.
        * rewrite orb_false_r in Sp. destruct (I2 eq_refl) as [(ks' & n & A1 & A2 & A3) _]. rewrite A1. cbn [bind].
          destruct (IHm H1 s x (Some y) n X Y A2 (or_intror R1)) as [J _]. specialize (J Sp). destruct t_vjp as [s' r]. cbn in J |- *. now rewrite J.
      + apply orb_false_iff in Sp. destruct Sp as [Sm Ss]. destruct (I2 Ss) as [(ks' & n & A1 & A2 & A3) (kw & vs & nw & B1 & B2 & B3 & B4)].
        rewrite A1, B1. cbn [bind]. split.
        * destruct (IHm H1 s x (Some y) n X Y A2 (or_intror R1)) as [_ J]. destruct (J Sm) as [(s' & n' & E1 & E2 & E3) _]. rewrite E1.
          exists (s' :: ks'), n'. cbn. sp; cbn; auto.
        * destruct (IHm H1 s x (Some y) nw X Y B2 (or_intror R1)) as [_ J]. destruct (J Sm) as [_ (s' & o & E1 & E2 & E3)]. rewrite E1.
          assert (W : if lossy m || existsb lossy ms then Exists bad (match o with Some t => t :: vs | None => vs end)
                      else Forall good (match o with Some t => t :: vs | None => vs end)).
          { destruct o as [n1|]; cbn in E2.
            - destruct (lossy m); cbn; [now constructor|]. destruct (existsb lossy ms); [now apply Exists_cons_tl|now constructor].
            - rewrite E2. exact B4. }
          destruct (Nat.eqb k 0).
          -- exists (s' :: kw), (match o with Some t => t :: vs | None => vs end), nw. cbn [readys t_split fst snd]. sp; cbn; auto.
          -- destruct (IHm H1 s' x (Some y) nw X Y B2 (or_intror E3)) as [_ J']. destruct (J' Sm) as [(s2 & n2 & E4 & E5 & E6) _]. rewrite E4.
             exists (s2 :: kw), (match o with Some t => t :: vs | None => vs end), n2. cbn [bind need readys t_split fst snd]. sp; cbn; auto.
  Qed.

  Notation plain := (plain d dd). Notation backward := (backward d dd).
  Lemma weak_tens w (q : tst * res (option num)) : both d (tens d w) q -> fit gopt (snd q).
  Proof. intros [_ F]. eapply fit_weak; [|exact F]. apply tens_gopt. Qed.
  Lemma uniform (m : module K) : dd = d \/ plain m = true ->
    forall s x val v mat mats w fd td db,
    good_state d s -> good x -> gopt val -> good v -> gopt mat -> good_value d mats ->
    fit good (snd (t_forward d m s x)) /\
    fit gopt (snd (t_jacobian d dd m s x val w)) /\
    fit gopt (snd (t_jvp d dd m s x val v w)) /\
    fit gopt (snd (t_jmp d dd m s x val mat w)) /\
    fit gopt (snd (t_vjp d dd m s x val v w)) /\
    fit gopt (snd (t_mjp d dd m s x val mat w)) /\
    fit (good_value d) (snd (t_jmjTp d dd m s x val mats w fd td db)) /\
    fit (good_value d) (snd (t_jTmjp d dd m s x val mats w fd td db)).
  Proof.
    intros L s x val v mat mats w fd td db S0 X V G M Ms.
    assert (L' : dd = d \/ backward m = true) by (destruct L; auto using plain_backward).
    assert (O : forall a, mjp_ok d dd m a) by (intros a; destruct L; [now left|right; now left]).
    sp.
    - now apply forward_good.
    - apply weak_tens with w. now apply jacobian_good.
    - now apply jvp_good.
    - now apply jmp_good.
    - apply weak_tens with w. now apply vjp_good.
    - apply weak_tens with w. now apply mjp_good.
    - now apply jmjTp_good.
    - now apply jTmjp_good.
  Qed.
  Lemma backward_methods (m : module K) : backward m = true ->
    forall s x val v mat mats w fd td db,
    good_state d s -> good x -> gopt val -> good v -> good mat -> good_value d mats ->
    fit gopt (snd (t_vjp d dd m s x val v w)) /\
    fit gopt (snd (t_mjp d dd m s x val (Some mat) w)) /\
    (composite m = true -> fit gopt (snd (t_jacobian d dd m s x val w))) /\
    fit (good_value d) (snd (t_jTmjp d dd m s x val mats w fd td db)).
  Proof.
    intros L s x val v mat mats w fd td db S0 X V G M Ms. sp.
    - apply weak_tens with w. apply vjp_good; auto.
    - apply weak_tens with w. apply mjp_good; auto. right; right. split; [exact L|left; discriminate].
    - intros C. apply weak_tens with w. apply jacobian_good; auto. right; right. auto.
    - apply jTmjp_good; auto.
  Qed.
  Lemma vjp_input (m : module K) : hooked m = true -> forall s x v, good x -> good v ->
    if spoils m then snd (t_vjp d dd m s x None v Input) = Raise RuntimeError
    else exists n, snd (t_vjp d dd m s x None v Input) = Ok (Some n) /\ good n.
  Proof.
    intros Hh s x v X V. destruct (vjp_exact m Hh s x None v X I V (or_introl eq_refl)) as [A B].
    destruct (spoils m); [now apply A|]. destruct (B eq_refl) as [(s' & n & E & N0 & _) _]. exists n. now rewrite E.
  Qed.
  Lemma vjp_weight (m : module K) : hooked m = true -> spoils m = false -> forall s x v, good x -> good v ->
    exists o, snd (t_vjp d dd m s x None v Weight) = Ok o /\
    match o with None => lossy m = false | Some n => good n <-> lossy m = false end.
  Proof.
    intros Hh Sp s x v X V. destruct (vjp_exact m Hh s x None v X I V (or_introl eq_refl)) as [_ B].
    destruct (B Sp) as [_ (s' & o & E & W & _)]. exists o. rewrite E. split; [reflexivity|]. destruct o as [n|]; [|exact W]. cbn in W.
    destruct (lossy m); split; auto; [|discriminate]. intros G. now contradiction (good_bad n G).
  Qed.
  Lemma backward_spoils : forall m : module K, dd = d \/ backward m = true -> spoils m = false /\ lossy m = false.
  Proof.
    refine (module_ind2 (fun m => dd = d \/ backward m = true -> spoils m = false /\ lossy m = false)
      (fun ms => dd = d \/ forallb backward ms = true -> existsb spoils ms = false /\ existsb lossy ms = false) _ _ _ _ _ _); cbn; auto.
    - intros l L. destruct l; auto.
      + split; [reflexivity|]. destruct L as [L|L]; cbn in L; rewrite L; [rewrite eqb_refl; apply andb_false_r|reflexivity].
      + split; [|reflexivity]. destruct L as [L|L]; cbn in L; rewrite L; [now destruct d|reflexivity].
      + split; [|reflexivity]. destruct L as [L|L]; [rewrite L; now rewrite eqb_refl|discriminate].
    - intros c [L|L]; [|discriminate]. rewrite L, eqb_refl. auto.
    - intros m ms A B L. destruct (forallb_or _ _ _ _ L) as [L1 L2]. destruct (A L1) as [-> ->], (B L2) as [-> ->]. auto.
  Qed.
  Lemma vjp_weight_good (m : module K) : hooked m = true -> (dd = d \/ backward m = true) ->
    forall s x v, good x -> good v -> exists o, snd (t_vjp d dd m s x None v Weight) = Ok o /\ gopt o.
  Proof.
    intros Hh L s x v X V. destruct (backward_spoils m L) as [Sp Lo]. destruct (vjp_weight m Hh Sp s x v X V) as (o & E & W).
    exists o. split; [exact E|]. destruct o; cbn; auto. now apply W.
  Qed.
End P.
