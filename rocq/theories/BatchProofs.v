(** Batch independence of every product. *)
From Coq Require Import String Ascii List Arith ZArith Lia Bool.
From Verif Require Import Scalar Sums Tensor TensorLemmas EinsumLemmas Conv Abstract Simple LinearLayer ConvLayer PoolLayer
  Module Spec OpLemmas ReshapeLemmas Jac LeafSpec LeafSimple TreeBase Leaves Trees TreePull TreePush BatchSpec Batch UtilProofs.
Import ListNotations.
Local Open Scope nat_scope.
Local Open Scope list_scope.

Section BatchProofs.
  Context {K} `{CR : CRing K}.
  Notation gt := (get (@n0 K _)).
  Notation T := (tensor K).
  Section Sel.
  Variables (b n : nat) (f : nat -> nat).
  Hypotheses (Hb : 0 < b) (Hn : 0 < n) (Hf : selects n f b).
  Notation pk := (pick n f).

  Lemma pick_tab2 m (g : nat -> nat -> K) : pk (tab2 b m g) = tab2 n m (fun q => g (f q)).
  Proof.
    symmetry. apply (pick_eq_get b n f _ _ [m]); try reflexivity; [apply wf_tab|]. intros q idx Hq V.
    destruct idx as [|i [|]]; cbn in V; try tauto. destruct V as (Hi & _). rewrite !get_tab2 by auto. reflexivity.
  Qed.
  Lemma pick_tab3 m p (g : nat -> nat -> nat -> K) : pk (tab3 b m p g) = tab3 n m p (fun q => g (f q)).
  Proof.
    symmetry. apply (pick_eq_get b n f _ _ [m; p]); try reflexivity; [apply wf_tab|]. intros q idx Hq V.
    destruct idx as [|i [|j [|]]]; cbn in V; try tauto. destruct V as (Hi & Hj & _). rewrite !get_tab3 by auto. reflexivity.
  Qed.
  Lemma gt_pick2 (t : T) m q i : shape t = [b; m] -> q < n -> i < m -> gt (pk t) [q; i] = gt t [f q; i].
  Proof. intros S Hq Hi. apply (get_pick b n f t [m]); cbn; auto. Qed.
  Lemma gt_pick3 (t : T) m p q i j : shape t = [b; m; p] -> q < n -> i < m -> j < p -> gt (pk t) [q; i; j] = gt t [f q; i; j].
  Proof. intros S Hq Hi Hj. apply (get_pick b n f t [m; p]); cbn; auto. Qed.

  Definition Jpick (m k : nat) (J J' : nat -> nat -> nat -> K) : Prop :=
    forall q i j, q < n -> i < m -> j < k -> J' q i j = J (f q) i j.
  Lemma dense_pick m k J J' : Jpick m k J J' -> dense n m k J' = pk (dense b m k J).
  Proof. intros E. unfold dense. rewrite pick_tab3. apply tab3_ext. intros; now apply E. Qed.
  Lemma vJ_pick m k J J' v : Jpick m k J J' -> shape v = [b; m] -> vJ n m k J' (pk v) = pk (vJ b m k J v).
  Proof.
    intros E S. unfold vJ. rewrite pick_tab2. apply tab2_ext. intros q j Hq Hj. apply bsum_ext. intros i Hi.
    now rewrite (gt_pick2 v m), E.
  Qed.
  Lemma MJ_pick r m k J J' M : Jpick m k J J' -> shape M = [b; r; m] -> MJ n r m k J' (pk M) = pk (MJ b r m k J M).
  Proof.
    intros E S. unfold MJ. rewrite pick_tab3. apply tab3_ext. intros q a j Hq Ha Hj. apply bsum_ext. intros i Hi.
    now rewrite (gt_pick3 M r m), E.
  Qed.
  Lemma Jv_pick m k J J' v : Jpick m k J J' -> shape v = [b; k] -> Jv n m k J' (pk v) = pk (Jv b m k J v).
  Proof.
    intros E S. unfold Jv. rewrite pick_tab2. apply tab2_ext. intros q j Hq Hj. apply bsum_ext. intros i Hi.
    now rewrite (gt_pick2 v k), E.
  Qed.
  Lemma JM_pick m k c J J' M : Jpick m k J J' -> shape M = [b; k; c] -> JM n m k c J' (pk M) = pk (JM b m k c J M).
  Proof.
    intros E S. unfold JM. rewrite pick_tab3. apply tab3_ext. intros q j a Hq Hj Ha. apply bsum_ext. intros i Hi.
    now rewrite (gt_pick3 M k c), E.
  Qed.
  Lemma metric_pick fd m (M : T) q i k : shape M = metric_shape fd b m -> q < n -> i < m -> k < m ->
    metric fd (pk M) q i k = metric fd M (f q) i k.
  Proof.
    intros S Hq Hi Hk. unfold metric. destruct fd; cbn in S.
    - destruct Nat.eqb; auto. now apply (gt_pick2 M m).
    - now apply (gt_pick3 M m m).
  Qed.
  Lemma present_pick td m R R' : (forall q i j, q < n -> i < m -> j < m -> R' q i j = R (f q) i j) ->
    present td n m R' = pk (present td b m R).
  Proof.
    intros E. unfold present. destruct td; [rewrite pick_tab2; apply tab2_ext|rewrite pick_tab3; apply tab3_ext]; intros; now apply E.
  Qed.
  Lemma pull_at_pick m k J J' M M' q j l : Jpick m k J J' -> (forall i i', i < m -> i' < m -> M' q i i' = M (f q) i i') ->
    q < n -> j < k -> l < k -> pull_at m J' M' q j l = pull_at m J M (f q) j l.
  Proof.
    intros E EM Hq Hj Hl. unfold pull_at. apply bsum_ext. intros i Hi. apply bsum_ext. intros i' Hi'. now rewrite !E, EM.
  Qed.
  Lemma push_at_pick m k J J' M M' q i l : Jpick m k J J' -> (forall j j', j < k -> j' < k -> M' q j j' = M (f q) j j') ->
    q < n -> i < m -> l < m -> push_at k J' M' q i l = push_at k J M (f q) i l.
  Proof.
    intros E EM Hq Hj Hl. unfold push_at. apply bsum_ext. intros j Hi. apply bsum_ext. intros j' Hi'. now rewrite !E, EM.
  Qed.
  Lemma metric_shape_pick fd m (M : T) : shape M = metric_shape fd b m -> shape (pk M) = metric_shape fd n m.
  Proof. destruct fd; intros S; apply (shape_pick b n f M) in S; exact S. Qed.

  (** nested lists of blocks *)
  Lemma block_pick td m off R R' : (forall q i j, q < n -> i < off + m -> j < off + m -> R' q i j = R (f q) i j) ->
    block td n m off R' = pk (block td b m off R).
  Proof. intros E. unfold block. apply present_pick. intros; apply E; auto; lia. Qed.
  Lemma wval_pick td R R' : forall (m : module K) off,
    (forall q i j, q < n -> i < off + n_params m -> j < off + n_params m -> R' q i j = R (f q) i j) ->
    wval td n R' m off = vpick n f (wval td b R m off).
  Proof.
    refine (module_ind2 (fun m => forall off,
      (forall q i j, q < n -> i < off + n_params m -> j < off + n_params m -> R' q i j = R (f q) i j) ->
      wval td n R' m off = vpick n f (wval td b R m off))
      (fun ms => forall off, (forall q i j, q < n -> i < off + seq_np ms -> j < off + seq_np ms -> R' q i j = R (f q) i j) ->
      wvals (wval td n R') ms off = map (vpick n f) (wvals (wval td b R) ms off)) _ _ _ _ _ _).
    - intros l off E. cbn [wval n_params] in *. destruct Nat.eqb; [reflexivity|]. cbn [vpick]. f_equal. now apply block_pick.
    - reflexivity.
    - intros h ms IH off E. cbn [wval]. destruct Nat.eqb; [reflexivity|]. destruct td; cbn [vpick]; f_equal; [now apply block_pick|].
      now apply IH.
    - intros F IH off E. cbn [wval]. now apply IH.
    - reflexivity.
    - intros m ms IH IHs off E. cbn [wvals].
      rewrite IH by (intros; apply E; auto; cbn [seq_np fold_right]; lia).
      rewrite IHs by (intros; apply E; auto; unfold seq_np in *; cbn [fold_right]; lia).
      destruct (wval td b R m off); reflexivity.
  Qed.
  Lemma rep_pick fd R : (forall m off v, rep fd b R m off v -> rep fd n (fun q => R (f q)) m off (vpick n f v)) /\
    (forall ms off vs, reps fd b R ms off vs -> reps fd n (fun q => R (f q)) ms off (map (vpick n f) vs)).
  Proof.
    apply rep_both; intros; cbn [vpick map]; try (constructor; assumption).
    - rewrite <- (block_pick fd _ off R (fun q => R (f q))) by reflexivity. constructor.
    - rewrite <- (block_pick fd _ off R (fun q => R (f q))) by reflexivity. constructor.
  Qed.
  End Sel.

  Section Fix.
    Variables (m : module K) (s s' : list nat) (b n : nat) (f : nat -> nat) (x : T).
    Hypotheses (Ty : typed m s s') (Bw : batchwise m) (Hb : 0 < b) (Wx : wf x) (Sx : shape x = b :: s).
    Hypotheses (Hn : 0 < n) (Hf : selects n f b).
    Notation pk := (pick n f).
    Let Wx' : wf (pk x) := wf_pick n f x.
    Let Sx' : shape (pk x) = n :: s := shape_pick b n f x s Sx.

    Lemma fwd_pick : exists y, fwd m x = Ok y /\ wf y /\ shape y = b :: s' /\ fwd m (pk x) = Ok (pk y).
    Proof.
      destruct (fwd_total m s s' b x Ty Hb Wx Sx) as (y & Fy & Wy & Sy). exists y. repeat split; auto.
      now apply (proj1 (tree_indep b n f Hb Hn Hf) m s s' Ty Bw x y).
    Qed.
    Lemma JX_pick : Jpick n f (numel s') (numel s) (JX m x) (JX m (pk x)).
    Proof.
      destruct (fwd_total m s s' b x Ty Hb Wx Sx) as (y & Fy & Wy & Sy).
      destruct (proj1 (tree_indep b n f Hb Hn Hf) m s s' Ty Bw x y Wx Sx Fy Sy) as (A & B & C). exact B.
    Qed.
    Lemma JW_pick : Jpick n f (numel s') (n_params m) (JW m x) (JW m (pk x)).
    Proof.
      destruct (fwd_total m s s' b x Ty Hb Wx Sx) as (y & Fy & Wy & Sy).
      destruct (proj1 (tree_indep b n f Hb Hn Hf) m s s' Ty Bw x y Wx Sx Fy Sy) as (A & B & C). exact C.
    Qed.
    Lemma jacobian_input_pick h h' : exists J, snd (jacobian m h x None Input) = Ok (Some J) /\
      snd (jacobian m h' (pk x) None Input) = Ok (Some (pk J)).
    Proof.
      eexists. split; [now apply (jac_input m s s' b)|]. rewrite (jac_input m s s' n (pk x)) by auto.
      do 2 f_equal. apply (dense_pick b n f Hf), JX_pick.
    Qed.
    Lemma jacobian_weight_pick h h' : n_params m <> 0 -> exists J, snd (jacobian m h x None Weight) = Ok (Some J) /\
      snd (jacobian m h' (pk x) None Weight) = Ok (Some (pk J)).
    Proof.
      intros Np. eexists. split; [now apply (jac_weight m s s' b)|]. rewrite (jac_weight m s s' n (pk x)) by auto.
      do 2 f_equal. apply (dense_pick b n f Hf), JW_pick.
    Qed.
    Lemma entry_JX h J : snd (jacobian m h x None Input) = Ok (Some J) -> Jpick n f (numel s') (numel s) (entry J) (entry (pk J)).
    Proof.
      intros E. rewrite (jac_input m s s' b x Ty Hb Wx Sx) in E. injection E as <-. intros q i j Hq Hi Hj.
      apply (gt_pick3 b n f _ (numel s') (numel s)); auto.
    Qed.
    Lemma entry_JW h J : n_params m <> 0 -> snd (jacobian m h x None Weight) = Ok (Some J) -> Jpick n f (numel s') (n_params m) (entry J) (entry (pk J)).
    Proof.
      intros Np E. rewrite (jac_weight m s s' b x Ty Hb Wx Sx h Np) in E. injection E as <-. intros q i j Hq Hi Hj.
      apply (gt_pick3 b n f _ (numel s') (n_params m)); auto.
    Qed.
    Definition both (o o' : res (option T)) : Prop :=
      exists r, o = Ok r /\ o' = Ok (option_map pk r).
    Lemma same_J (P Q : T -> Prop) (o o' : res (option T)) J0 J0' : o = Ok (Some J0) -> o' = Ok (Some J0') ->
      (exists J, o = Ok (Some J) /\ P J) -> (exists J, o' = Ok (Some J) /\ Q J) -> P J0 /\ Q J0'.
    Proof. intros -> -> (J & E & HP) (J' & E' & HQ). injection E as ->. injection E' as ->. auto. Qed.

    Ltac fetch H := let J := fresh "J" in let E := fresh "E" in destruct H as (J & E & _ & _ & ->).
    Lemma vjp_pick w h h' v : w <> Other -> wf v -> shape v = [b; numel s'] ->
      both (snd (vjp m h x None v w)) (snd (vjp m h' (pk x) None (pk v) w)).
    Proof.
      intros Hw Wv Sv. pose proof (shape_pick b n f v _ Sv) as Sv'. pose proof (wf_pick n f v) as Wv'.
      destruct w; [| |congruence].
      - destruct (jacobian_input_pick st0 st0) as (J & E1 & E2).
        destruct (vjp_input m s s' b x Ty Hb Wx Sx st0 h v Wv Sv) as (J1 & F1 & _ & _ & G1).
        destruct (vjp_input m s s' n (pk x) Ty Hn Wx' Sx' st0 h' (pk v) Wv' Sv') as (J2 & F2 & _ & _ & G2).
        rewrite E1 in F1. rewrite E2 in F2. injection F1 as <-. injection F2 as <-.
        eexists. split; [exact G1|]. rewrite G2. cbn [option_map vpick]. do 2 f_equal. apply (vJ_pick b n f Hf); auto. now apply (entry_JX st0).
      - destruct (vjp_weight m s s' b x Ty Hb Wx Sx st0 h v Wv Sv) as [A1 A2].
        destruct (vjp_weight m s s' n (pk x) Ty Hn Wx' Sx' st0 h' (pk v) Wv' Sv') as [B1 B2].
        destruct (Nat.eq_dec (n_params m) 0) as [Z|Z].
        { rewrite (A2 Z), (B2 Z). now exists None. }
        destruct (jacobian_weight_pick st0 st0 Z) as (J & E1 & E2).
        destruct (A1 Z) as (J1 & F1 & _ & _ & G1). destruct (B1 Z) as (J2 & F2 & _ & _ & G2).
        rewrite E1 in F1. rewrite E2 in F2. injection F1 as <-. injection F2 as <-.
        eexists. split; [exact G1|]. rewrite G2. cbn [option_map vpick]. do 2 f_equal. apply (vJ_pick b n f Hf); auto. now apply (entry_JW st0).
    Qed.
    Lemma mjp_pick w h h' r M : w <> Other -> 0 < r -> wf M -> shape M = [b; r; numel s'] ->
      both (snd (mjp m h x None (Some M) w)) (snd (mjp m h' (pk x) None (Some (pk M)) w)).
    Proof.
      intros Hw Hr Wv Sv. pose proof (shape_pick b n f M _ Sv) as Sv'. pose proof (wf_pick n f M) as Wv'.
      destruct w; [| |congruence].
      - destruct (jacobian_input_pick st0 st0) as (J & E1 & E2).
        destruct (mjp_input m s s' b x Ty Hb Wx Sx st0 h r M Hr Wv Sv) as (J1 & F1 & _ & _ & G1).
        destruct (mjp_input m s s' n (pk x) Ty Hn Wx' Sx' st0 h' r (pk M) Hr Wv' Sv') as (J2 & F2 & _ & _ & G2).
        rewrite E1 in F1. rewrite E2 in F2. injection F1 as <-. injection F2 as <-.
        eexists. split; [exact G1|]. rewrite G2. cbn [option_map vpick]. do 2 f_equal. apply (MJ_pick b n f Hf); auto. now apply (entry_JX st0).
      - destruct (mjp_weight m s s' b x Ty Hb Wx Sx st0 h r M Hr Wv Sv) as [A1 A2].
        destruct (mjp_weight m s s' n (pk x) Ty Hn Wx' Sx' st0 h' r (pk M) Hr Wv' Sv') as [B1 B2].
        destruct (Nat.eq_dec (n_params m) 0) as [Z|Z].
        { rewrite (A2 Z), (B2 Z). now exists None. }
        destruct (jacobian_weight_pick st0 st0 Z) as (J & E1 & E2).
        destruct (A1 Z) as (J1 & F1 & _ & _ & G1). destruct (B1 Z) as (J2 & F2 & _ & _ & G2).
        rewrite E1 in F1. rewrite E2 in F2. injection F1 as <-. injection F2 as <-.
        eexists. split; [exact G1|]. rewrite G2. cbn [option_map vpick]. do 2 f_equal. apply (MJ_pick b n f Hf); auto. now apply (entry_JW st0).
    Qed.
    Definition wsize (w : wrt) : nat := match w with Input => numel s | _ => n_params m end.
    Lemma jvp_pick w h h' v : fwdable m -> w = Input \/ w = Weight /\ skips_param m -> wf v -> shape v = [b; wsize w] ->
      both (snd (jvp m h x None v w)) (snd (jvp m h' (pk x) None (pk v) w)).
    Proof.
      intros Fb Hw Wv Sv. pose proof (shape_pick b n f v _ Sv) as Sv'. pose proof (wf_pick n f v) as Wv'.
      destruct Hw as [-> | [-> Sp]]; cbn [wsize] in *.
      - destruct (jacobian_input_pick st0 st0) as (J & E1 & E2).
        destruct (jvp_input m s s' b x Ty Hb Wx Sx st0 h None v Fb (or_introl eq_refl) Wv Sv) as (J1 & F1 & _ & _ & G1).
        destruct (jvp_input m s s' n (pk x) Ty Hn Wx' Sx' st0 h' None (pk v) Fb (or_introl eq_refl) Wv' Sv') as (J2 & F2 & _ & _ & G2).
        rewrite E1 in F1. rewrite E2 in F2. injection F1 as <-. injection F2 as <-.
        eexists. split; [exact G1|]. rewrite G2. cbn [option_map vpick]. do 2 f_equal. apply (Jv_pick b n f Hf); auto. now apply (entry_JX st0).
      - destruct (jvp_weight m s s' b x Ty Hb Wx Sx st0 h None v Fb Sp (or_introl eq_refl) Wv Sv) as [A1 A2].
        destruct (jvp_weight m s s' n (pk x) Ty Hn Wx' Sx' st0 h' None (pk v) Fb Sp (or_introl eq_refl) Wv' Sv') as [B1 B2].
        destruct (Nat.eq_dec (n_params m) 0) as [Z|Z].
        { rewrite (A2 Z), (B2 Z). now exists None. }
        destruct (jacobian_weight_pick st0 st0 Z) as (J & E1 & E2).
        destruct (A1 Z) as (J1 & F1 & _ & _ & G1). destruct (B1 Z) as (J2 & F2 & _ & _ & G2).
        rewrite E1 in F1. rewrite E2 in F2. injection F1 as <-. injection F2 as <-.
        eexists. split; [exact G1|]. rewrite G2. cbn [option_map vpick]. do 2 f_equal. apply (Jv_pick b n f Hf); auto. now apply (entry_JW st0).
    Qed.
    Lemma jmp_pick w h h' c M : fwdable m -> w = Input \/ w = Weight /\ skips_param m -> 0 < c -> wf M -> shape M = [b; wsize w; c] ->
      both (snd (jmp m h x None (Some M) w)) (snd (jmp m h' (pk x) None (Some (pk M)) w)).
    Proof.
      intros Fb Hw Hc Wv Sv. pose proof (shape_pick b n f M _ Sv) as Sv'. pose proof (wf_pick n f M) as Wv'.
      destruct Hw as [-> | [-> Sp]]; cbn [wsize] in *.
      - destruct (jacobian_input_pick st0 st0) as (J & E1 & E2).
        destruct (jmp_input m s s' b x Ty Hb Wx Sx st0 h None c M Fb (or_introl eq_refl) Hc Wv Sv) as (J1 & F1 & _ & _ & G1).
        destruct (jmp_input m s s' n (pk x) Ty Hn Wx' Sx' st0 h' None c (pk M) Fb (or_introl eq_refl) Hc Wv' Sv') as (J2 & F2 & _ & _ & G2).
        rewrite E1 in F1. rewrite E2 in F2. injection F1 as <-. injection F2 as <-.
        eexists. split; [exact G1|]. rewrite G2. cbn [option_map vpick]. do 2 f_equal. apply (JM_pick b n f Hf); auto. now apply (entry_JX st0).
      - destruct (jmp_weight m s s' b x Ty Hb Wx Sx st0 h None c M Fb Sp (or_introl eq_refl) Hc Wv Sv) as [A1 A2].
        destruct (jmp_weight m s s' n (pk x) Ty Hn Wx' Sx' st0 h' None c (pk M) Fb Sp (or_introl eq_refl) Hc Wv' Sv') as [B1 B2].
        destruct (Nat.eq_dec (n_params m) 0) as [Z|Z].
        { rewrite (A2 Z), (B2 Z). now exists None. }
        destruct (jacobian_weight_pick st0 st0 Z) as (J & E1 & E2).
        destruct (A1 Z) as (J1 & F1 & _ & _ & G1). destruct (B1 Z) as (J2 & F2 & _ & _ & G2).
        rewrite E1 in F1. rewrite E2 in F2. injection F1 as <-. injection F2 as <-.
        eexists. split; [exact G1|]. rewrite G2. cbn [option_map vpick]. do 2 f_equal. apply (JM_pick b n f Hf); auto. now apply (entry_JW st0).
    Qed.
    Lemma jTmjp_pick w h h' fd td M : all_sym m -> nonempty m -> w <> Other -> wf M -> shape M = metric_shape fd b (numel s') ->
      exists r, snd (jTmjp m h x None (VT M) w fd td false) = Ok r /\
        snd (jTmjp m h' (pk x) None (VT (pk M)) w fd td false) = Ok (vpick n f r).
    Proof.
      intros As Ne Hw Wv Sv. pose proof (metric_shape_pick b n f fd _ M Sv) as Sv'. pose proof (wf_pick n f M) as Wv'.
      destruct w; [| |congruence].
      - destruct (jacobian_input_pick st0 st0) as (J & E1 & E2).
        destruct (jTmjp_input m s s' b x Ty Hb Wx Sx st0 h fd td M As Ne Wv Sv) as (J1 & F1 & _ & _ & G1).
        destruct (jTmjp_input m s s' n (pk x) Ty Hn Wx' Sx' st0 h' fd td (pk M) As Ne Wv' Sv') as (J2 & F2 & _ & _ & G2).
        rewrite E1 in F1. rewrite E2 in F2. injection F1 as <-. injection F2 as <-.
        eexists. split; [exact G1|]. rewrite G2. cbn [vpick]. do 2 f_equal. apply (present_pick b n f Hf). intros q i j Hq Hi Hj.
        apply (pull_at_pick n f _ (numel s)); auto; [now apply (entry_JX st0)|]. intros. now apply (metric_pick b n f fd (numel s')).
      - destruct (jTmjp_weight m s s' b x Ty Hb Wx Sx st0 h fd td M As Ne Wv Sv) as [A1 A2].
        destruct (jTmjp_weight m s s' n (pk x) Ty Hn Wx' Sx' st0 h' fd td (pk M) As Ne Wv' Sv') as [B1 B2].
        destruct (Nat.eq_dec (n_params m) 0) as [Z|Z].
        { rewrite (A2 Z), (B2 Z). now exists VNone. }
        destruct (jacobian_weight_pick st0 st0 Z) as (J & E1 & E2).
        destruct (A1 Z) as (J1 & F1 & _ & _ & G1). destruct (B1 Z) as (J2 & F2 & _ & _ & G2).
        rewrite E1 in F1. rewrite E2 in F2. injection F1 as <-. injection F2 as <-.
        eexists. split; [exact G1|]. rewrite G2. f_equal. apply (wval_pick b n f Hb Hn Hf). intros q i j Hq Hi Hj.
        apply (pull_at_pick n f _ (n_params m)); auto; [now apply (entry_JW st0)|]. intros. now apply (metric_pick b n f fd (numel s')).
    Qed.
    Lemma jmjTp_input_pick h h' fd td M : fwdable m -> nonempty m -> wf M -> shape M = metric_shape fd b (numel s) ->
      exists r, snd (jmjTp m h x None (VT M) Input fd td false) = Ok r /\
        snd (jmjTp m h' (pk x) None (VT (pk M)) Input fd td false) = Ok (vpick n f r).
    Proof.
      intros Fb Ne Wv Sv. pose proof (metric_shape_pick b n f fd _ M Sv) as Sv'. pose proof (wf_pick n f M) as Wv'.
      destruct (jacobian_input_pick st0 st0) as (J & E1 & E2).
      destruct (jmjTp_input m s s' b x Ty Hb Wx Sx st0 h fd td M Fb Ne Wv Sv) as (J1 & F1 & _ & _ & G1).
      destruct (jmjTp_input m s s' n (pk x) Ty Hn Wx' Sx' st0 h' fd td (pk M) Fb Ne Wv' Sv') as (J2 & F2 & _ & _ & G2).
      rewrite E1 in F1. rewrite E2 in F2. injection F1 as <-. injection F2 as <-.
      eexists. split; [exact G1|]. rewrite G2. cbn [vpick]. do 2 f_equal. apply (present_pick b n f Hf). intros q i j Hq Hi Hj.
      apply (push_at_pick n f (numel s') (numel s)); auto; [now apply (entry_JX st0)|]. intros. now apply (metric_pick b n f fd (numel s)).
    Qed.
    Lemma jmjTp_weight_pick h h' fd td R v : fwdable m -> nonempty m -> n_params m <> 0 -> rep fd b R m 0 v ->
      exists r, snd (jmjTp m h x None v Weight fd td false) = Ok r /\
        snd (jmjTp m h' (pk x) None (vpick n f v) Weight fd td false) = Ok (vpick n f r).
    Proof.
      intros Fb Ne Z Rp. pose proof (proj1 (rep_pick b n f Hb Hn Hf fd R) m 0 v Rp) as Rp'.
      destruct (jacobian_weight_pick st0 st0 Z) as (J & E1 & E2).
      destruct (jmjTp_weight_rep m s s' b x Ty Hb Wx Sx st0 h fd td R v Fb Ne Z Rp) as (J1 & F1 & _ & _ & G1).
      destruct (jmjTp_weight_rep m s s' n (pk x) Ty Hn Wx' Sx' st0 h' fd td _ _ Fb Ne Z Rp') as (J2 & F2 & _ & _ & G2).
      rewrite E1 in F1. rewrite E2 in F2. injection F1 as <-. injection F2 as <-.
      eexists. split; [exact G1|]. rewrite G2. cbn [vpick]. do 2 f_equal. apply (present_pick b n f Hf). intros q i j Hq Hi Hj.
      apply (push_at_pick n f (numel s') (n_params m)); auto; try reflexivity. now apply (entry_JW st0).
    Qed.
  End Fix.

  Section Fix2.
    Variables (m : module K) (s s' : list nat) (b n : nat) (f : nat -> nat) (x : T).
    Hypotheses (Ty : typed m s s') (Bw : batchwise m) (Hb : 0 < b) (Wx : wf x) (Sx : shape x = b :: s).
    Hypotheses (Hn : 0 < n) (Hf : selects n f b).
    Lemma forward_pick h h' : exists y, snd (forward m h x) = Ok y /\ wf y /\ shape y = b :: s' /\
      snd (forward m h' (pick n f x)) = Ok (pick n f y).
    Proof.
      destruct (fwd_pick m s s' b n f x Ty Bw Hb Wx Sx Hn Hf) as (y & A & B & C & D). exists y. rewrite !forward_pure. auto.
    Qed.
    Lemma jacobian_pick w h h' : w = Input \/ w = Weight /\ n_params m <> 0 ->
      exists J, snd (jacobian m h x None w) = Ok (Some J) /\ snd (jacobian m h' (pick n f x) None w) = Ok (Some (pick n f J)).
    Proof. intros [-> | [-> Np]]; [exact (jacobian_input_pick m s s' b n f x Ty Bw Hb Wx Sx Hn Hf h h')|exact (jacobian_weight_pick m s s' b n f x Ty Bw Hb Wx Sx Hn Hf h h' Np)]. Qed.
  End Fix2.

  (** *** stacking the samples gives back the batch *)
  Lemma cat_pick_samples (t : T) b s : shape t = b :: s -> forall len a j idx, j < len -> a + len <= b -> valid s idx ->
    cat_pick n0 0 (map (fun q => sample q t) (seq a len)) j (j :: idx) = gt t (a + j :: idx).
  Proof.
    intros S. assert (G : forall len a j j0 idx, j < len -> a + len <= b -> valid s idx ->
      cat_pick n0 0 (map (fun q => sample q t) (seq a len)) j (j0 :: idx) = gt t (a + j :: idx)).
    { induction len as [|len IH]; intros a j j0 idx Hj Ha V; [lia|]. cbn [seq map cat_pick].
      replace (dim (sample a t) 0) with 1 by reflexivity. destruct (Nat.ltb_spec j 1) as [L|L].
      - assert (j = 0) as -> by lia. cbn [set_nth]. rewrite Nat.add_0_r. unfold sample.
        assert (Sel : selects 1 (fun _ => a) b) by (intros i Hi; lia).
        apply (get_pick b 1 (fun _ => a) t s 0 idx S); auto.
      - rewrite (IH (Datatypes.S a) (j - 1) j0 idx) by (auto; lia). do 2 f_equal. lia. }
    intros len a j idx. apply G.
  Qed.
  Lemma sum_ones (t : T) k : forall a, fold_right Nat.add 0 (map (fun q => dim (sample q t) 0) (seq a k)) = k.
  Proof. induction k as [|k IH]; intros a; [reflexivity|]. cbn [seq map fold_right]. rewrite IH. reflexivity. Qed.
  Lemma stack_samples (t : T) b s : 0 < b -> wf t -> shape t = b :: s -> cat n0 0 (map (fun q => sample q t) (seq 0 b)) = Ok t.
  Proof.
    intros Hb Wt St. destruct b as [|b]; [lia|]. set (B := S b) in *.
    assert (E : map (fun q => sample q t) (seq 0 B) = sample 0 t :: map (fun q => sample q t) (seq 1 b)) by reflexivity.
    assert (Sh : forall q, shape (sample q t) = 1 :: s) by (intros q; cbn; now rewrite St).
    unfold cat. rewrite E. rewrite <- E. unfold rank. rewrite (Sh 0). cbn [length Nat.ltb Nat.leb].
    replace (forallb _ _) with true.
    2:{ symmetry. apply forallb_forall. intros u Hu. apply in_map_iff in Hu. destruct Hu as (q & <- & _). rewrite Sh. apply shape_eqb_true. reflexivity. }
    f_equal. cbn [set_nth].
    replace (fold_right Nat.add 0 (map (fun u => dim u 0) (map (fun q => sample q t) (seq 0 B)))) with B.
    2:{ rewrite map_map. symmetry. apply sum_ones. }
    symmetry. rewrite <- St at 1. apply (tab_eq n0); auto. rewrite St. intros idx V. destruct idx as [|q idx]; [contradiction|]. destruct V as [Hq V].
    cbn [nth]. rewrite (cat_pick_samples t B s St) by (auto; lia). reflexivity.
  Qed.
  Section Stack.
    Variables (m : module K) (s s' : list nat) (b : nat) (x : T).
    Hypotheses (Ty : typed m s s') (Bw : batchwise m) (Hb : 0 < b) (Wx : wf x) (Sx : shape x = b :: s).
    Lemma sel1 q : q < b -> selects 1 (fun _ => q) b. Proof. intros Hq i _. exact Hq. Qed.
    Lemma forward_stack h (h' : nat -> st K) : exists ys, (forall q, q < b -> snd (forward m (h' q) (sample q x)) = Ok (ys q)) /\
      snd (forward m h x) = cat n0 0 (map ys (seq 0 b)).
    Proof.
      destruct (fwd_total m s s' b x Ty Hb Wx Sx) as (y & Fy & Wy & Sy). exists (fun q => sample q y). split.
      - intros q Hq. destruct (forward_pick m s s' b 1 (fun _ => q) x Ty Bw Hb Wx Sx Nat.lt_0_1 (sel1 q Hq) st0 (h' q)) as (y' & E & _ & _ & G).
        rewrite forward_pure, Fy in E. injection E as <-. exact G.
      - rewrite forward_pure, Fy. symmetry. now apply (stack_samples y b s').
    Qed.
    Lemma vjp_stack h (h' : nat -> st K) v : wf v -> shape v = [b; numel s'] ->
      exists rs, (forall q, q < b -> snd (vjp m (h' q) (sample q x) None (sample q v) Input) = Ok (Some (rs q))) /\
      snd (vjp m h x None v Input) = (t <- cat n0 0 (map rs (seq 0 b)) ;; Ok (Some t)).
    Proof.
      intros Wv Sv. destruct (vjp_input m s s' b x Ty Hb Wx Sx st0 h v Wv Sv) as (J & _ & _ & _ & G).
      set (r := vJ b (numel s') (numel s) (entry J) v) in G. exists (fun q => sample q r). split.
      - intros q Hq. destruct (vjp_pick m s s' b 1 (fun _ => q) x Ty Bw Hb Wx Sx Nat.lt_0_1 (sel1 q Hq) Input h (h' q) v) as (r' & E & E'); auto; [discriminate|].
        rewrite G in E. injection E as <-. exact E'.
      - rewrite G. rewrite (stack_samples r b [numel s]); [reflexivity|exact Hb|apply wf_tab|reflexivity].
    Qed.
  End Stack.
End BatchProofs.
