(** Constructors and what a network accepts: proofs. *)
From Coq Require Import String List Arith ZArith Lia Bool.
From Verif Require Import Scalar Sums Tensor TensorLemmas Conv Abstract Simple LinearLayer ConvLayer PoolLayer Module Domain ReshapeZ
  TreeBase Trees FwdSpec Fwd Build BuildSpec.
Import ListNotations.
Local Open Scope nat_scope.
Local Open Scope list_scope.

Section ExprInd.
  Context {K : Type} (P : expr K -> Prop) (Q : list (expr K) -> Prop).
  Hypotheses (Hl : forall i o b w v, P (ELinear i o b w v)) (Hc : forall a w v, P (EConv a w v))
    (Hp : forall k s p d c, P (EPool k s p d c)) (Hu : forall n d, P (EUpsample n d)) (Ha : forall a, P (EAct a)) (Hf : P EFlatten)
    (Hr : forall d, P (EReshape d)) (H2 : forall e, P (EL2Norm e)) (Hs : forall h es, Q es -> P (ESeq h es))
    (Hk : forall h es, Q es -> P (ESkip h es)) (Ho : P Foreign) (Hn : Q []) (Hcons : forall e es, P e -> Q es -> Q (e :: es)).
  Fixpoint expr_ind2 (e : expr K) : P e :=
    let go := fix go l := match l return Q l with [] => Hn | e :: l => Hcons e l (expr_ind2 e) (go l) end in
    match e with
    | ELinear i o b w v => Hl i o b w v
    | EConv a w v => Hc a w v
    | EPool k s p d c => Hp k s p d c
    | EUpsample n d => Hu n d
    | EAct a => Ha a
    | EFlatten => Hf
    | EReshape d => Hr d
    | EL2Norm e => H2 e
    | ESeq h es => Hs h es (go es)
    | ESkip h es => Hk h es (go es)
    | Foreign => Ho
    end.
End ExprInd.

Lemma plain_disjoint n k s p d n2 : 0 < k -> 0 < d -> plain_pool k s d -> disjoint_windows n k s p d n2.
Proof.
  unfold plain_pool, disjoint_windows. intros Hk Hd H o o' z _ _ I I'. apply in_window_iff in I, I'. unfold in_window in *.
  destruct I as (_ & u & U & E), I' as (_ & u' & U' & E').
  assert (u * d <= (k - 1) * d) by (apply Nat.mul_le_mono_r; lia). assert (u' * d <= (k - 1) * d) by (apply Nat.mul_le_mono_r; lia).
  assert (D : forall a c e f, a * s + e = c * s + f -> e < s -> f < s -> a = c).
  { intros a c e f G L1 L2. destruct (lt_eq_lt_dec a c) as [[L|L]|L]; auto; exfalso; nia. }
  apply (D o o' (u * d) (u' * d)); lia.
Qed.

Section Build.
  Context {K} `{CR : CRing K}.
  Notation T := (tensor K).

  (** *** the settings, read off the module *)
  Definition plain_leaf (l : leaf K) : Prop :=
    match l with
    | Linear W b => exists c2 c1, 0 < c2 /\ shape W = [c2; c1] /\ wf W /\ bias_ok b c2
    | Conv2d c W b => exists c2 c1 kh kw, shape W = [c2; c1; kh; kw] /\ wf W /\ bias_ok b c2 /\ cstride c = (1, 1) /\ cdil c = (1, 1) /\
        cgroups c = 1 /\ (cmode c = PZeros \/ cpad c = (0, 0)) /\ fst (cpad c) < kh /\ snd (cpad c) < kw
    | Upsample sn sd => 0 < sd /\ sn mod sd = 0
    | Custom _ => False
    | _ => True
    end.
  Fixpoint plain_mod (m : module K) : Prop :=
    match m with
    | Leaf l => plain_leaf l
    | MaxPool c => plain_pool (fst (pk c)) (fst (ps c)) (fst (pd c)) /\ plain_pool (snd (pk c)) (snd (ps c)) (snd (pd c))
    | Seq h ms => h = true /\ fold_right (fun m p => plain_mod m /\ p) True ms
    | Skip F => match F with Seq _ _ => plain_mod F | _ => False end
    end.
  Definition plain_mods (ms : list (module K)) : Prop := fold_right (fun m p => plain_mod m /\ p) True ms.

  Lemma build_all_plain es : Forall (fun e => forall m, plain e -> build e = Ok (Some m) -> plain_mod m) es ->
    fold_right (fun e p => plain e /\ p) True es -> forall l ms, build_all build es = Ok l -> all_nnj l = Ok ms -> plain_mods ms.
  Proof.
    induction 1 as [|e es He _ IH]; cbn [fold_right build_all]; intros Pl l ms B A.
    - injection B as <-. injection A as <-. exact I.
    - destruct (build e) as [m|] eqn:Be; [|discriminate]. destruct (build_all build es) as [l'|] eqn:Bs; [|discriminate]. injection B as <-.
      destruct m as [m|]; [|discriminate]. cbn [all_nnj] in A. destruct (all_nnj l') as [ms'|] eqn:A'; [|discriminate]. injection A as <-.
      destruct Pl as [P1 P2]. split; eauto.
  Qed.
  Lemma build_plain : forall (e : expr K) m, plain e -> build e = Ok (Some m) -> plain_mod m.
  Proof.
    refine (expr_ind2 (fun e => forall m, plain e -> build e = Ok (Some m) -> plain_mod m)
      (Forall (fun e => forall m, plain e -> build e = Ok (Some m) -> plain_mod m)) _ _ _ _ _ _ _ _ _ _ _ _ _).
    - intros i o b w v m P E. injection E as <-. cbn [make_linear plain_mod plain_leaf]. exists o, i. repeat split; auto.
      + apply wf_tab.
      + destruct b; cbn; auto. split; [reflexivity|apply wf_tab].
    - intros a w v m P E. cbn [build] in E. destruct (make_conv a w v) as [m'|] eqn:F; [|discriminate]. injection E as ->.
      unfold make_conv, check in F. cbn [plain] in P. unfold plain_conv in P. destruct P as (D & G & P).
      destruct (0 <? a_groups a); [|discriminate]. destruct (_ mod _ =? 0); [|discriminate]. destruct (_ mod _ =? 0); [|discriminate].
      destruct (a_padding a) as [p|str].
      2:{ destruct (String.eqb str "same"); [|destruct (String.eqb str "valid")]; try discriminate. destruct (_ && _); discriminate. }
      destruct (_ && _) eqn:S1; [|discriminate]. injection F as <-. cbn [plain_mod plain_leaf]. do 4 eexists. split; [reflexivity|].
      split; [apply wf_tab|]. split; [destruct (a_bias a); cbn; auto; split; [reflexivity|apply wf_tab]|]. cbn [cstride cdil cgroups cmode cpad].
      apply andb_true_iff in S1 as [S1 S2]. apply Nat.eqb_eq in S1, S2. destruct (pair_of (a_stride a)); cbn [fst snd] in *; subst. tauto.
    - intros k s p d c m P E. injection E as <-. exact P.
    - intros n d m P E. injection E as <-. exact P.
    - intros a m P E. injection E as <-. exact I.
    - intros m P E. injection E as <-. exact I.
    - intros d m P E. injection E as <-. exact I.
    - intros d m P E. injection E as <-. exact I.
    - intros h es IH m [-> P] E. cbn [build] in E. destruct (build_all build es) as [l|] eqn:B; [|discriminate]. cbn [bind] in E.
      destruct (all_nnj l) as [ms|] eqn:A; [|discriminate]. injection E as <-. split; auto. exact (build_all_plain es IH P l ms B A).
    - intros h es IH m [-> P] E. cbn [build] in E. destruct (build_all build es) as [l|] eqn:B; [|discriminate]. cbn [bind] in E.
      destruct (all_nnj l) as [ms|] eqn:A; [|discriminate]. injection E as <-. split; auto. exact (build_all_plain es IH P l ms B A).
    - discriminate.
    - constructor.
    - constructor; auto.
  Qed.

  (** *** what is accepted is typed *)
  Lemma out_len_1 n k p q : p < k -> out_len n k 1 p 1 = Some q -> q + k = n + 2 * p + 1 /\ 0 < q.
  Proof.
    unfold out_len. intros L. destruct (_ && _) eqn:E; [|discriminate]. rewrite Nat.div_1_r. intros [= <-]. apply andb_true_iff in E as [_ E]. apply Nat.leb_le in E. lia.
  Qed.
  Lemma numel3 c h w : 0 < numel [c; h; w] -> 0 < c /\ 0 < h /\ 0 < w.
  Proof. unfold numel. cbn. nia. Qed.
  Lemma leaf_accepted (l : leaf K) b s (x y : T) : plain_leaf l -> 0 < b -> 0 < numel s -> shape x = b :: s -> fits (Leaf l) x ->
    leaf_forward l x = Ok y -> exists s', leaf_typed l s s'.
  Proof.
    intros P Hb Hs Sx F E. destruct l as [W bias|cfg W bias|a| |d|e|sn sd|c]; cbn [fits leaf_forward plain_leaf] in *.
    - destruct P as (c2 & c1 & C2 & SW & WW & B). rewrite Sx in F. destruct s as [|c [|]]; try discriminate.
      unfold lin_forward in E. rewrite Sx, SW in E. unfold check in E. destruct (Nat.eqb_spec c c1) as [->|]; [|discriminate].
      exists [c2]. split; auto. split; [unfold numel; cbn; lia|]. auto.
    - destruct P as (c2 & c1 & kh & kw & SW & WW & B & St & Di & G & M & Ph & Pw). rewrite Sx in F. destruct s as [|c [|h [|w [|]]]]; try discriminate.
      unfold conv_forward in E. rewrite Sx in E. unfold conv2d_mode in E. rewrite Sx, SW, St, Di, G in E. unfold check in E.
      destruct (_ && _) eqn:C in E; [|discriminate]. destruct (match bias with None => _ | Some _ => _ end) in E; [|discriminate].
      destruct (_ && _) in E; [|discriminate]. cbn [fst snd] in E. destruct (out_len h kh 1 (fst (cpad cfg)) 1) as [h2|] eqn:Eh; [|discriminate].
      destruct (out_len w kw 1 (snd (cpad cfg)) 1) as [w2|] eqn:Ew; [|discriminate].
      apply out_len_1 in Eh, Ew; auto. apply andb_true_iff in C as [C C2]. apply andb_true_iff in C as [C _]. apply andb_true_iff in C as [_ C].
      apply Nat.eqb_eq in C. apply Nat.ltb_lt in C2. destruct (numel3 _ _ _ Hs) as (H1 & H3 & H4).
      exists [c2; h2; w2]. split; auto. split; [unfold numel; cbn; nia|]. unfold conv_ok. rewrite SW, St, Di, G. cbn [fst snd].
      unfold dil_ok. repeat split; auto; lia.
    - exists s. split; auto.
    - exists [numel s]. split; auto. split; auto. unfold numel in *. cbn. lia.
    - unfold reshape_forward, size in E. rewrite Sx in E. cbn [nth_error bind] in E. destruct (reshape_z_cases b d x) as [(s' & D & N & _)|R].
      + rewrite Sx, !numel_cons in N. assert (numel s' = numel s) by nia. exists s'. split; auto. split; [lia|]. auto.
      + rewrite R in E. discriminate.
    - exists s. split; auto.
    - destruct P as [Pd Pm]. rewrite Sx in F. destruct s as [|c [|h [|w [|]]]]; try discriminate. destruct (numel3 _ _ _ Hs) as (H1 & H3 & H4).
      unfold up_forward, upsample_nearest in E. rewrite Sx in E. unfold check in E. destruct (_ && _) eqn:C in E; [|discriminate].
      apply andb_true_iff in C as [C _]. apply andb_true_iff in C as [C _]. apply andb_true_iff in C as [C _]. apply Nat.ltb_lt in C.
      assert (Q : sn = sn / sd * sd) by (rewrite (Nat.div_mod sn sd) at 1 by lia; rewrite Pm; lia).
      assert (0 < sn / sd) by (destruct (sn / sd); lia).
      exists [c; h * (sn / sd); w * (sn / sd)]. split; auto. split; [unfold numel; cbn; nia|]. auto.
    - contradiction.
  Qed.
  Lemma pool_len_pos n k s p d ceil q : 0 < n -> pool_len n k s p d ceil = Some q -> 0 < q /\ 0 < k /\ 0 < d.
  Proof.
    unfold pool_len. intros Hn. destruct (_ && _) eqn:E; [|discriminate]. repeat (apply andb_true_iff in E as [E ?]).
    apply Nat.ltb_lt in E. match goal with H : (0 <? d) = true |- _ => apply Nat.ltb_lt in H end.
    destruct ceil; cbv zeta; intros [= <-]; [|split; [lia|auto]].
    set (o := _ / s). split; [|auto]. destruct (Nat.leb_spec (n + p) ((o + 1 - 1) * s)); [|lia]. destruct o; [cbn in *; lia|lia].
  Qed.
  Lemma argmax_nil (f : nat * nat -> K) c : argmax f [] <> Some c.
  Proof. discriminate. Qed.
  Lemma cells_some (f : nat * nat -> K) ys xs c : argmax f (cells ys xs) = Some c -> ys <> [] /\ xs <> [].
  Proof.
    intros E. split; intros ->; [discriminate|]. unfold cells in E. replace (flat_map (fun y : nat => map (fun x : nat => (y, x)) []) ys) with (@nil (nat * nat)) in E; [discriminate|].
    clear. induction ys; auto.
  Qed.
  Lemma pool_accepted cfg b s (x y : T) : plain_mod (MaxPool cfg) -> 0 < b -> 0 < numel s -> shape x = b :: s -> fits (MaxPool cfg) x ->
    fwd (MaxPool cfg) x = Ok y -> exists s', pool_typed cfg s s'.
  Proof.
    intros [P1 P2] Hb Hs Sx F E. cbn [fits] in F. rewrite Sx in F. destruct s as [|c [|h [|w [|]]]]; try discriminate.
    destruct (numel3 _ _ _ Hs) as (H1 & H3 & H4). rewrite fwd_Pool in E. unfold max_pool2d in E. rewrite Sx in E. unfold max_pool4 in E. rewrite Sx in E.
    destruct (pool_len h _ _ _ _ _) as [h2|] eqn:Eh; [|discriminate]. destruct (pool_len w _ _ _ _ _) as [w2|] eqn:Ew; [|discriminate].
    destruct (forallb _ _) eqn:A; [|discriminate]. clear E. rewrite forallb_forall in A.
    destruct (pool_len_pos _ _ _ _ _ _ _ H3 Eh) as (Q1 & Q2 & Q3), (pool_len_pos _ _ _ _ _ _ _ H4 Ew) as (Q4 & Q5 & Q6).
    assert (W : forall o o', o < h2 -> o' < w2 -> window h (fst (pk cfg)) (fst (ps cfg)) (fst (pp cfg)) (fst (pd cfg)) o <> [] /\
      window w (snd (pk cfg)) (snd (ps cfg)) (snd (pp cfg)) (snd (pd cfg)) o' <> []).
    { intros o o' Lo Lo'. assert (B : valid [b; c; h2; w2] [0; 0; o; o']) by (cbn; repeat split; auto; lia).
      specialize (A (ravel [b; c; h2; w2] [0; 0; o; o'])). rewrite in_seq in A. pose proof (ravel_lt _ _ B) as L. specialize (A ltac:(lia)).
      rewrite unravel_ravel in A by auto. unfold pool_cell in A. destruct (argmax _ _) eqn:G in A; [|discriminate]. now apply cells_some in G. }
    exists [c; h2; w2]. split; auto. split; [unfold numel; cbn; nia|]. repeat split; auto.
    - intros o Lo. now apply (W o 0).
    - intros o Lo. now apply (W 0 o).
    - now apply plain_disjoint.
    - now apply plain_disjoint.
  Qed.

  Lemma accepted : forall (m : module K) b s x y, plain_mod m -> 0 < b -> 0 < numel s -> wf x -> shape x = b :: s -> fits m x ->
    fwd m x = Ok y -> exists s', typed m s s'.
  Proof.
    refine (module_ind2 (fun m => forall b s x y, plain_mod m -> 0 < b -> 0 < numel s -> wf x -> shape x = b :: s -> fits m x ->
      fwd m x = Ok y -> exists s', typed m s s')
      (fun ms => forall b s x y, plain_mods ms -> 0 < b -> 0 < numel s -> wf x -> shape x = b :: s -> fits_seq fits ms x ->
      fwd_seq ms x = Ok y -> exists s', typed_seq ms s s') _ _ _ _ _ _).
    - intros l b s x y P Hb Hs Wx Sx F E. destruct (leaf_accepted l b s x y) as [s' G]; auto. exists s'. now constructor.
    - intros c b s x y P Hb Hs Wx Sx F E. destruct (pool_accepted c b s x y) as [s' G]; auto. exists s'. now constructor.
    - intros h ms IH b s x y [-> P] Hb Hs Wx Sx F E. rewrite fwd_Seq in E. destruct (IH b s x y) as [s' G]; auto. exists s'. now constructor.
    - intros F IH b s x y P Hb Hs Wx Sx Fi E. cbn [plain_mod] in P. rewrite fwd_Skip in E. destruct (fwd F x) as [z|] eqn:Ez; [|discriminate]. cbn [bind] in E.
      destruct F as [| |h ms|]; try contradiction. destruct (IH b s x z) as [s1 G]; auto.
      destruct (fwd_total _ s s1 b x G Hb Wx Sx) as (z' & Ez' & Wz & Sz). assert (z' = z) by congruence. subst z'.
      unfold cat in E. unfold rank in E. rewrite Sx in E. destruct (Nat.ltb_spec 1 (length (b :: s))) as [L|]; [|discriminate].
      destruct s as [|c r]; [cbn in L; lia|]. destruct (forallb _ _) eqn:A; [|discriminate]. cbn [forallb] in A. apply andb_true_iff in A as [_ A].
      rewrite Sz, andb_true_r in A. apply shape_eqb_true in A. destruct s1 as [|c' r']; [discriminate|]. cbn in A. injection A as ->.
      destruct P as [-> _]. inversion G; subst. exists ((c + c') :: r). now constructor.
    - intros b s x y _ _ Hs _ _ _ _. exists s. now constructor.
    - intros m ms IHm IHs b s x y [P Ps] Hb Hs Wx Sx [F Fs] E. cbn [fwd_seq] in E. destruct (fwd m x) as [z|] eqn:Ez; [|discriminate]. cbn [bind] in E.
      destruct (IHm b s x z) as [s1 G]; auto. destruct (fwd_total _ s s1 b x G Hb Wx Sx) as (z' & Ez' & Wz & Sz). assert (z' = z) by congruence. subst z'.
      destruct (IHs b s1 z y) as [s2 G2]; auto. { now destruct (typed_pos_m m s s1 G). }
      exists s2. now constructor 2 with s1.
  Qed.

  (** conversely *)
  Lemma typed_fits : (forall (m : module K) s s', typed m s s' -> forall b x, 0 < b -> wf x -> shape x = b :: s -> fits m x) /\
    (forall (ms : list (module K)) s s', typed_seq ms s s' -> forall b x, 0 < b -> wf x -> shape x = b :: s -> fits_seq fits ms x).
  Proof.
    apply typed_both.
    - intros l s s' (_ & _ & G) b x _ _ Sx. destruct l; cbn [fits]; auto; rewrite Sx.
      + destruct s as [|? [|]]; try contradiction. reflexivity.
      + unfold conv_ok in G. destruct s as [|? [|? [|? [|]]]]; try contradiction. reflexivity.
      + destruct G as (_ & _ & G). destruct s as [|? [|? [|? [|]]]]; try contradiction. reflexivity.
    - intros c s s' (_ & _ & G) b x _ _ Sx. cbn [fits]. rewrite Sx. destruct s as [|? [|? [|? [|]]]]; try contradiction. reflexivity.
    - intros ms s s' _ IH b x. apply IH.
    - intros ms c c' r _ IH b x. apply IH.
    - intros; exact I.
    - intros m ms s s1 s2 Tm IHm _ IHs b x Hb Wx Sx. split; [now apply (IHm b)|]. intros y E.
      destruct (fwd_total _ s s1 b x Tm Hb Wx Sx) as (z & Ez & Wz & Sz). assert (z = y) by congruence. subst z. now apply (IHs b).
  Qed.
End Build.
