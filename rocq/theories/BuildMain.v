(** Constructors and what a network accepts: the statements of C70. *)
From Coq Require Import String List Arith ZArith Lia Bool.
From Verif Require Import Scalar Sums Tensor TensorLemmas Conv Abstract Simple LinearLayer ConvLayer PoolLayer Module Spec Domain
  TreeBase Trees FwdSpec Fwd Build BuildSpec BuildProofs.
Import ListNotations.
Local Open Scope nat_scope.
Local Open Scope list_scope.

Section Main.
  Context {K} `{CR : CRing K}.
  Notation T := (tensor K).

  (** *** constructors *)
  Lemma stride_11 (p : nat * nat) : (fst p =? 1) && (snd p =? 1) = true <-> p = (1, 1).
  Proof.
    destruct p as [a c]. cbn [fst snd]. rewrite andb_true_iff, !Nat.eqb_eq. split; [intros [-> ->]; reflexivity|intros [= -> ->]; auto].
  Qed.
  Lemma make_conv_legal a (w v : list nat -> K) : (exists m, make_conv a w v = Ok m) <-> legal (EConv a w v).
  Proof.
    cbn [legal]. unfold make_conv, check. split.
    - intros [m E]. destruct (Nat.ltb_spec 0 (a_groups a)) as [G|]; [|discriminate].
      destruct (Nat.eqb_spec (a_in a mod a_groups a) 0) as [I|]; [|discriminate]. destruct (Nat.eqb_spec (a_out a mod a_groups a) 0) as [O|]; [|discriminate].
      apply Nat.mod_divide in I, O; try lia. destruct (a_padding a) as [p|str].
      2:{ destruct (String.eqb str "same"); [|destruct (String.eqb str "valid")]; try discriminate. destruct (_ && _); discriminate. }
      destruct (_ && _) eqn:S1 in E; [|discriminate]. apply stride_11 in S1. repeat split; eauto.
    - intros (G & I & O & S1 & p & ->). apply Nat.ltb_lt in G as G'. rewrite G'. apply Nat.mod_divide in I, O; try lia. rewrite I, O. cbn [Nat.eqb].
      apply stride_11 in S1. rewrite S1. eauto.
  Qed.
  Lemma build_list es : Forall (fun e => (exists m, build e = Ok (Some m)) <-> legal (K := K) e) es ->
    (exists l ms, build_all build es = Ok l /\ all_nnj l = Ok ms) <-> fold_right (fun e p => legal e /\ p) True es.
  Proof.
    induction 1 as [|e es He _ IH]; cbn [fold_right build_all]; [split; auto; intros; exists [], []; auto|]. rewrite <- He, <- IH. split.
    - intros (l & ms & B & A). destruct (build e) as [m|] eqn:Be; [|discriminate]. destruct (build_all build es) as [l'|] eqn:Bs; [|discriminate]. injection B as <-.
      destruct m as [m|]; [|discriminate]. cbn [all_nnj] in A. destruct (all_nnj l') as [ms'|] eqn:A'; [|discriminate].
      split; [now exists m|exists l', ms'; auto].
    - intros ([m ->] & l & ms & -> & A). exists (Some m :: l), (m :: ms). cbn. now rewrite A.
  Qed.
  Lemma build_legal : forall e : expr K, (exists m, build e = Ok (Some m)) <-> legal e.
  Proof.
    refine (expr_ind2 _ (Forall (fun e => (exists m, build e = Ok (Some m)) <-> legal e)) _ _ _ _ _ _ _ _ _ _ _ _ _); try (intros; split; cbn; eauto; fail).
    - intros a w v. rewrite <- make_conv_legal. cbn [build]. split; intros [m E].
      + destruct (make_conv a w v); [eauto|discriminate].
      + rewrite E. cbn. eauto.
    - intros h es IH. apply build_list in IH. cbn [legal build]. rewrite <- IH. split.
      + intros [m E]. destruct (build_all build es) as [l|]; [|discriminate]. cbn [bind] in E. destruct (all_nnj l) eqn:A; [|discriminate]. eauto.
      + intros (l & ms & -> & A). cbn [bind]. rewrite A. cbn. eauto.
    - intros h es IH. apply build_list in IH. cbn [legal build]. rewrite <- IH. split.
      + intros [m E]. destruct (build_all build es) as [l|]; [|discriminate]. cbn [bind] in E. destruct (all_nnj l) eqn:A; [|discriminate]. eauto.
      + intros (l & ms & -> & A). cbn [bind]. rewrite A. cbn. eauto.
    - split; [intros [m E]; discriminate|intros []].
    - constructor.
    - constructor; auto.
  Qed.
  Lemma all_nnj_foreign (l : list (option (module K))) : In None l -> all_nnj l = Raise AttributeError.
  Proof.
    induction l as [|[m|] l IH]; cbn; [intros []| |auto]. intros [|I]; [discriminate|]. now rewrite IH.
  Qed.
  Lemma build_foreign h (es : list (expr K)) : (forall e, In e es -> exists o, build e = Ok o) -> In Foreign es ->
    build (ESeq h es) = Raise AttributeError /\ build (ESkip h es) = Raise AttributeError.
  Proof.
    intros A I. assert (B : exists l, build_all build es = Ok l /\ In None l).
    { induction es as [|e es IH]; [destruct I|]. cbn [build_all]. destruct (A e (or_introl eq_refl)) as [o E]. rewrite E. cbn [bind].
      assert (A' : forall e, In e es -> exists o, build e = Ok o) by (intros; apply A; now right).
      destruct I as [->|I].
      - cbn in E. injection E as <-. clear IH. assert (G : exists l, build_all build es = Ok l).
        { clear A. induction es as [|e es IH]; [now exists []|]. cbn [build_all]. destruct (A' e (or_introl eq_refl)) as [o ->]. cbn [bind].
          destruct IH as [l ->]; [intros; apply A'; now right|]. cbn. eauto. }
        destruct G as [l ->]. cbn. eexists. split; [reflexivity|]. now left.
      - destruct (IH A' I) as (l & -> & L). cbn. eexists. split; [reflexivity|]. now right. }
    destruct B as (l & B & L). cbn [build]. rewrite B. cbn [bind]. now rewrite (all_nnj_foreign l L).
  Qed.
  Lemma asked_list es : Forall (fun e => forall m, build e = Ok (Some m) -> n_params m = asked (K := K) e) es ->
    forall l ms, build_all build es = Ok l -> all_nnj l = Ok ms -> fold_right (fun m n => n_params m + n) 0 ms = fold_right (fun e n => asked e + n) 0 es.
  Proof.
    induction 1 as [|e es He _ IH]; cbn [fold_right build_all]; intros l ms B A.
    - injection B as <-. injection A as <-. reflexivity.
    - destruct (build e) as [m|] eqn:Be; [|discriminate]. destruct (build_all build es) as [l'|] eqn:Bs; [|discriminate]. injection B as <-.
      destruct m as [m|]; [|discriminate]. cbn [all_nnj] in A. destruct (all_nnj l') as [ms'|] eqn:A'; [|discriminate]. injection A as <-. cbn [fold_right].
      rewrite (He m eq_refl). f_equal. eauto.
  Qed.
  Lemma build_asked : forall (e : expr K) m, build e = Ok (Some m) -> n_params m = asked e.
  Proof.
    refine (expr_ind2 _ (Forall (fun e => forall m, build e = Ok (Some m) -> n_params m = asked e)) _ _ _ _ _ _ _ _ _ _ _ _ _); try (intros; match goal with E : build _ = _ |- _ => now injection E as <- end); auto.
    - intros i o b w v m E. injection E as <-. cbn [make_linear n_params leaf_n_params asked]. unfold lin_n_params. destruct b; cbn [shape tab]; unfold numel; cbn; lia.
    - intros a w v m E. cbn [build] in E. unfold make_conv, check in E. destruct (0 <? a_groups a); [|discriminate].
      destruct (_ mod _ =? 0); [|discriminate]. destruct (_ mod _ =? 0); [|discriminate]. destruct (a_padding a) as [p|str].
      2:{ destruct (String.eqb str "same"); [|destruct (String.eqb str "valid")]; try discriminate. destruct (_ && _); discriminate. }
      destruct (_ && _); [|discriminate]. injection E as <-. cbn [n_params leaf_n_params asked]. unfold conv_n_params.
      destruct (a_bias a); cbn [shape tab]; unfold numel, dim; cbn; lia.
    - intros h es IH m E. cbn [build] in E. destruct (build_all build es) as [l|] eqn:B; [|discriminate]. cbn [bind] in E. destruct (all_nnj l) as [ms|] eqn:A; [|discriminate].
      injection E as <-. exact (asked_list es IH l ms B A).
    - intros h es IH m E. cbn [build] in E. destruct (build_all build es) as [l|] eqn:B; [|discriminate]. cbn [bind] in E. destruct (all_nnj l) as [ms|] eqn:A; [|discriminate].
      injection E as <-. exact (asked_list es IH l ms B A).
    - intros m E. discriminate.
  Qed.

  (** *** what is built *)
  Lemma build_parts es : forall l ms, build_all build es = Ok l -> all_nnj l = Ok ms -> Forall2 (fun e m => build (K := K) e = Ok (Some m)) es ms.
  Proof.
    induction es as [|e es IH]; cbn [build_all]; intros l ms B A.
    - injection B as <-. injection A as <-. constructor.
    - destruct (build e) as [m|] eqn:Be; [|discriminate]. destruct (build_all build es) as [l'|] eqn:Bs; [|discriminate]. injection B as <-.
      destruct m as [m|]; [|discriminate]. cbn [all_nnj] in A. destruct (all_nnj l') as [ms'|] eqn:A'; [|discriminate]. injection A as <-.
      constructor; eauto.
  Qed.
  Lemma fwd_seq_chain ms : forall x : T, fwd_seq ms x = fold_left (fun r m => y <- r ;; fwd m y) ms (Ok x).
  Proof.
    induction ms as [|m ms IH]; intros x; cbn [fwd_seq fold_left bind]; auto. destruct (fwd m x) as [y|e]; cbn [bind]; [apply IH|].
    clear IH. induction ms; cbn; auto.
  Qed.
  Lemma build_seq h es m : build (ESeq h es) = Ok (Some m) -> exists ms, Forall2 (fun e m => build e = Ok (Some m)) es ms /\
    forall x : T, fwd m x = fold_left (fun r m => y <- r ;; fwd m y) ms (Ok x).
  Proof.
    cbn [build]. intros E. destruct (build_all build es) as [l|] eqn:B; [|discriminate]. cbn [bind] in E. destruct (all_nnj l) as [ms|] eqn:A; [|discriminate].
    injection E as <-. exists ms. split; [exact (build_parts es l ms B A)|]. intros x. rewrite fwd_Seq. apply fwd_seq_chain.
  Qed.
  Lemma build_skip h es m : build (ESkip h es) = Ok (Some m) -> exists q, build (ESeq h es) = Ok (Some q) /\
    forall x : T, fwd m x = (y <- fwd q x ;; cat n0 1 [x; y]).
  Proof.
    cbn [build]. intros E. destruct (build_all build es) as [l|] eqn:B; [|discriminate]. cbn [bind] in *. destruct (all_nnj l) as [ms|] eqn:A; [|discriminate].
    injection E as <-. exists (Seq h ms). split; [reflexivity|]. intros x. apply fwd_Skip.
  Qed.
  Lemma build_linear i o bias w v m b (x : T) : build (ELinear i o bias w v) = Ok (Some m) -> shape x = [b; i] ->
    fwd m x = Ok (tab2 b o (fun n k => nadd (bsum i (fun j => nmul (get n0 x [n; j]) (w [k; j]))) (if bias then v [k] else n0))).
  Proof.
    intros E Sx. injection E as <-. unfold make_linear. rewrite fwd_Leaf. cbn [leaf_forward]. unfold lin_forward. rewrite Sx. cbn [shape tab]. rewrite Nat.eqb_refl.
    cbn [check]. replace (match (if bias then Some (tab [o] v) else None) with Some t => shape_eqb (shape t) [o] | None => true end) with true
      by (destruct bias; auto; symmetry; apply shape_eqb_refl). cbn [check]. f_equal. apply tab2_ext. intros n k Ln Lk.
    replace (bsum i (fun j => nmul (get n0 x [n; j]) (get n0 (tab [o; i] w) [k; j]))) with (bsum i (fun j => nmul (get n0 x [n; j]) (w [k; j]))).
    - destruct bias; [|destruct cring as [Z0 Sy]; rewrite Sy; symmetry; apply Z0]. now rewrite get_tab by (cbn; auto).
    - apply bsum_ext. intros j Lj. now rewrite get_tab by (cbn; auto).
  Qed.

  Lemma build_conv a w v p m b c h wd (x y : T) : build (EConv a w v) = Ok (Some m) -> a_padding a = PadSize p -> a_mode a = PZeros ->
    shape x = [b; c; h; wd] -> fwd m x = Ok y -> exists h2 w2, shape y = [b; a_out a; h2; w2] /\
      h2 + fst (pair_of (a_dilation a)) * (fst (pair_of (a_kernel a)) - 1) = h + 2 * fst (pair_of p) /\
      w2 + snd (pair_of (a_dilation a)) * (snd (pair_of (a_kernel a)) - 1) = wd + 2 * snd (pair_of p) /\
      forall q o r t, q < b -> o < a_out a -> r < h2 -> t < w2 ->
        get n0 y [q; o; r; t] = nadd (bsum (a_in a / a_groups a) (fun i => bsum (fst (pair_of (a_kernel a))) (fun k => bsum (snd (pair_of (a_kernel a))) (fun l =>
          nmul (w [o; i; k; l]) (pixel x h wd q (o / (a_out a / a_groups a) * (a_in a / a_groups a) + i)
            (Z.of_nat (r + k * fst (pair_of (a_dilation a))) - Z.of_nat (fst (pair_of p)))
            (Z.of_nat (t + l * snd (pair_of (a_dilation a))) - Z.of_nat (snd (pair_of p)))))))) (if a_bias a then v [o] else n0).
  Proof.
    intros E Pa Mo Sx F. assert (S1 : pair_of (a_stride a) = (1, 1)) by (destruct (proj1 (build_legal (EConv a w v)) (ex_intro _ m E)) as (_ & _ & _ & G & _); exact G).
    cbn [build] in E. unfold make_conv, check in E. rewrite Pa in E. destruct (0 <? a_groups a); [|discriminate].
    destruct (_ mod _ =? 0); [|discriminate]. destruct (_ mod _ =? 0); [|discriminate]. destruct (_ && _); [|discriminate]. injection E as <-.
    eapply conv_is in F; [|exact Mo|exact Sx|reflexivity]. cbn [cstride cpad cdil cgroups cmode] in F. rewrite S1 in F. cbn [fst snd] in F.
    destruct F as (h2 & w2 & _ & Sy & A1 & A2 & A3 & A4 & G). exists h2, w2. split; [exact Sy|]. split; [lia|]. split; [lia|].
    intros q o r t Lq Lo Lr Lt. rewrite (G q o r t Lq Lo Lr Lt). f_equal.
    - apply bsum_ext. intros i Li. apply bsum_ext. intros k Lk. apply bsum_ext. intros l Ll. rewrite get_tab by (cbn; auto). now rewrite !Nat.mul_1_r.
    - unfold bias_at. destruct (a_bias a); auto. now rewrite get_tab by (cbn; auto).
  Qed.

  (** *** acceptance depends on the shape only *)
  Lemma same_bind (r r' : res T) (f g : T -> res T) : same_outcome r r' ->
    (forall y y', r = Ok y -> r' = Ok y' -> shape y = shape y' -> same_outcome (f y) (g y')) -> same_outcome (bind r f) (bind r' g).
  Proof. destruct r, r'; cbn; try contradiction; auto. Qed.
  Lemma same_check b e (r r' : res T) : same_outcome r r' -> same_outcome (check b e r) (check b e r').
  Proof. destruct b; cbn; auto. Qed.
  Lemma same_conv_any c W bias (x x' : T) m q d g : shape x = shape x' -> same_outcome (conv2d_mode m x W bias c q d g) (conv2d_mode m x' W bias c q d g).
  Proof.
    intros E. unfold conv2d_mode. rewrite E. destruct (shape x') as [|? [|? [|? [|? [|]]]]]; cbn; auto. destruct (shape W) as [|? [|? [|? [|? [|]]]]]; cbn; auto.
    do 3 apply same_check. repeat destruct (out_len _ _ _ _ _); cbn; auto.
  Qed.
  Lemma same_flat b (x x' : T) : shape x = shape x' -> same_outcome (flat b x) (flat b x').
  Proof. intros E. unfold flat, reshape_m1. rewrite E. repeat destruct (Nat.eqb _ _); cbn; auto. Qed.
  Lemma argmax_none (f : nat * nat -> K) l : argmax f l = None <-> l = [].
  Proof.
    split; [|intros ->; reflexivity]. unfold argmax. assert (G : forall l b, fold_left (fun best c => match best with None => Some c | Some b => if nltb (f b) (f c) then Some c else Some b end) l (Some b) <> None).
    { clear l. induction l as [|c l IH]; intros b; cbn; [discriminate|]. destruct (nltb _ _); apply IH. }
    destruct l; auto. cbn. intros E. now apply G in E.
  Qed.
  Lemma same_pool4 cfg (x x' : T) : shape x = shape x' ->
    match max_pool4 cfg x, max_pool4 cfg x' with Ok p, Ok p' => shape (fst p) = shape (fst p') | Raise e, Raise e' => e = e' | _, _ => False end.
  Proof.
    intros E. unfold max_pool4. rewrite E. destruct (shape x') as [|b [|c [|h [|w [|]]]]]; auto. repeat destruct (pool_len _ _ _ _ _ _); auto.
    match goal with |- match (if forallb ?f ?l then _ else _) with Ok _ => match (if forallb ?g ?l then _ else _) with _ => _ end | _ => _ end =>
      replace (forallb g l) with (forallb f l); [destruct (forallb f l); auto; reflexivity|] end.
    generalize (seq 0 (numel [b; c; n; n0])). intros l. induction l as [|k l IH]; cbn [forallb]; auto. rewrite IH. f_equal.
    destruct (unravel _ k) as [|? [|? [|? [|? [|]]]]]; auto. unfold pool_cell. set (cs := cells _ _).
    destruct (argmax _ cs) eqn:A1; destruct (argmax _ cs) eqn:A2 at 1; auto.
    - apply argmax_none in A2. rewrite A2 in A1. discriminate.
    - apply argmax_none in A1. rewrite A1 in A2. discriminate.
  Qed.
  Lemma same_leaf (l : leaf K) (x x' : T) : no_custom (Leaf l) -> shape x = shape x' -> same_outcome (leaf_forward l x) (leaf_forward l x').
  Proof.
    intros N E. destruct l as [W bias|cfg W bias|a| |d|e|sn sd|c]; cbn [leaf_forward]; try contradiction.
    - unfold lin_forward. rewrite E. destruct (shape x') as [|? [|? [|]]]; destruct (shape W) as [|? [|? [|]]]; cbn -[last removelast]; auto; do 2 apply same_check; reflexivity.
    - unfold conv_forward. rewrite E. destruct (shape x') as [|? [|? [|? [|]]]] eqn:Sx'; try (apply same_conv_any; congruence).
      apply same_bind; [apply same_conv_any; unfold unsqueeze0; cbn; congruence|]. intros y y' _ _ S. cbn. now rewrite S.
    - exact E.
    - unfold flatten_forward, size. rewrite E. destruct (nth_error _ _); cbn [bind]; [|reflexivity]. now apply same_flat.
    - unfold reshape_forward, size. rewrite E. destruct (nth_error _ _); cbn [bind]; [|reflexivity]. unfold reshape_z, reshape. rewrite E.
      destruct (existsb _ _); cbn; auto. destruct (length _) as [|[|]]; cbn; auto; repeat destruct (Nat.eqb _ _); cbn; auto.
    - unfold l2_forward, size. rewrite E. destruct (nth_error (shape x') 0) as [b|]; cbn [bind]; [|reflexivity].
      apply same_bind; [now apply same_flat|]. intros y y' _ _ S. apply same_bind.
      + unfold norm1, unpack2. rewrite S. destruct (shape y') as [|? [|? [|]]]; cbn; auto.
      + intros z z' _ _ Sz. unfold einsum_b_bdots, inv_eps. cbn [shape emap]. rewrite Sz, E. destruct (shape z') as [|? [|]]; cbn; auto. destruct (shape x'); cbn; auto. destruct (Nat.eqb _ _); cbn; auto.
    - unfold up_forward, upsample_nearest. rewrite E. destruct (shape x') as [|? [|? [|? [|? [|? [|]]]]]]; cbn [same_outcome]; auto; apply same_check; reflexivity.
  Qed.
  Lemma same_forward : forall (m : module K) x x', no_custom m -> shape x = shape x' -> same_outcome (fwd m x) (fwd m x').
  Proof.
    refine (module_ind2 (fun m => forall x x', no_custom m -> shape x = shape x' -> same_outcome (fwd m x) (fwd m x'))
      (fun ms => forall x x', fold_right (fun m p => no_custom m /\ p) True ms -> shape x = shape x' -> same_outcome (fwd_seq ms x) (fwd_seq ms x')) _ _ _ _ _ _).
    - intros l x x' N E. now apply same_leaf.
    - intros c x x' _ E. rewrite !fwd_Pool. unfold max_pool2d. rewrite E. destruct (shape x') as [|? [|? [|? [|]]]] eqn:Sx';
        try (pose proof (same_pool4 c x x' ltac:(congruence)) as G; destruct (max_pool4 c x), (max_pool4 c x'); cbn; auto; fail).
      pose proof (same_pool4 c (unsqueeze0 x) (unsqueeze0 x') ltac:(unfold unsqueeze0; cbn; congruence)) as G.
      destruct (max_pool4 c (unsqueeze0 x)) as [[? ?]|], (max_pool4 c (unsqueeze0 x')) as [[? ?]|]; cbn in *; auto. now rewrite G.
    - intros h ms IH x x' N E. rewrite !fwd_Seq. now apply IH.
    - intros F IH x x' N E. rewrite !fwd_Skip. apply same_bind; [now apply IH|]. intros y y' _ _ S. unfold cat, rank. rewrite E.
      destruct (Nat.ltb _ _); [|reflexivity]. cbn [forallb]. rewrite E, S. destruct (_ && _); [|reflexivity]. cbn [same_outcome shape tab map]. unfold dim. now rewrite E, S.
    - intros x x' _ E. exact E.
    - intros m ms IHm IHs x x' [N Ns] E. cbn [fwd_seq]. apply same_bind; [now apply IHm|]. intros y y' _ _ S. now apply IHs.
  Qed.

  (** *** one accepted batch *)
  Section One.
    Variables (e : expr K) (m : module K) (b : nat) (s : list nat) (x : T).
    Hypotheses (P : plain e) (B : build e = Ok (Some m)) (Hb : 0 < b) (Hs : 0 < numel s) (Wx : wf x) (Sx : shape x = b :: s).
    Lemma built_typed y : fits m x -> fwd m x = Ok y -> exists s', shape y = b :: s' /\ typed m s s'.
    Proof.
      intros F E. destruct (accepted m b s x y) as [s' G]; auto; [now apply (build_plain e)|]. exists s'. split; auto.
      destruct (fwd_total m s s' b x G Hb Wx Sx) as (y' & E' & _ & S). congruence.
    Qed.
    Lemma built_exact : (exists s', typed m s s') <-> fits m x /\ exists y, fwd m x = Ok y.
    Proof.
      split.
      - intros [s' G]. split; [now apply (proj1 typed_fits m s s' G b)|]. destruct (fwd_total m s s' b x G Hb Wx Sx) as (y & E & _). eauto.
      - intros [F [y E]]. destruct (built_typed y F E) as (s' & _ & G). eauto.
    Qed.
    Lemma built_batches y : fits m x -> fwd m x = Ok y -> forall b' x', 0 < b' -> wf x' -> shape x' = b' :: s ->
      exists y', fwd m x' = Ok y' /\ shape y' = b' :: tl (shape y).
    Proof.
      intros F E b' x' Hb' Wx' Sx'. destruct (built_typed y F E) as (s' & -> & G). destruct (fwd_total m s s' b' x' G Hb' Wx' Sx') as (y' & E' & _ & S). eauto.
    Qed.
    Lemma built_products y : fits m x -> fwd m x = Ok y -> forall b' x' v h h', 0 < b' -> wf x' -> shape x' = b' :: s ->
      wf v -> shape v = [b'; numel (tl (shape y))] ->
      (exists J, snd (jacobian m h x' None Input) = Ok (Some J) /\ shape J = [b'; numel (tl (shape y)); numel s] /\
         snd (vjp m h' x' None v Input) = Ok (Some (vJ b' (numel (tl (shape y))) (numel s) (Spec.entry J) v))) /\
      (asked e <> 0 -> exists J, snd (jacobian m h x' None Weight) = Ok (Some J) /\ shape J = [b'; numel (tl (shape y)); asked e] /\
         snd (vjp m h' x' None v Weight) = Ok (Some (vJ b' (numel (tl (shape y))) (asked e) (Spec.entry J) v))).
    Proof.
      intros F E b' x' v h h' Hb' Wx' Sx' Wv. destruct (built_typed y F E) as (s' & -> & G). cbn [tl]. intros Sv. split.
      - destruct (vjp_input m s s' b' x' G Hb' Wx' Sx' h h' v Wv Sv) as (J & J1 & _ & J2 & J3). eauto.
      - rewrite <- (build_asked e m B). intros Np. destruct (vjp_weight m s s' b' x' G Hb' Wx' Sx' h h' v Wv Sv) as [A _].
        destruct (A Np) as (J & J1 & _ & J2 & J3). eauto.
    Qed.
  End One.
End Main.
