(** Consequences for diag_backprop: nonnegativity, exactness when every intermediate metric is diagonal, the default metric. *)
From Coq Require Import String Ascii List Arith ZArith Lia Bool Reals Lra.
From Verif Require Import Scalar Sums Tensor TensorLemmas EinsumLemmas Conv Abstract Simple LinearLayer ConvLayer PoolLayer
  Module Spec OpLemmas ReshapeLemmas Domain Jac LeafSpec TreeBase TreeVjp StateCoh TreeMjp TreePull TreeJvp TreeJmp TreePush Leaves Trees DiagSpec DiagBack.
Import ListNotations.
Local Open Scope nat_scope.
Local Open Scope list_scope.

Section Exact.
  Context {K} `{CR : CRing K}.
  Add Ring Kring : (cring : ring_theory n0 n1 nadd nmul nsub nopp (@eq K)).
  Notation gt := (get (@n0 K _)).
  Notation T := (tensor K).
  Notation D := (@dmetric K).

  Definition exact_back m n b x (d : D) (N P : nat) : Prop := forall q, q < b ->
    (forall j, j < N -> dpull m x d q j = pull_at n (JX m x) (dmat d) q j j) /\
    (forall p, p < P -> dpullw m x d q p = pull_at n (JW m x) (dmat d) q p p).
  Lemma layer_J_seq ms s s' b x q i j : typed_seq ms s s' -> 0 < b -> wf x -> shape x = b :: s -> q < b -> i < numel s' -> j < numel s ->
    layer_J (Seq true ms) x Input q i j = seq_JX JX ms x q i j.
  Proof. intros Ty Hb Wx Sx Hq Hi Hj. now rewrite (layer_J_in (Seq true ms) s s' b) by (auto; now constructor). Qed.

  Lemma diag_exact :
    (forall m s s', typed (K := K) m s s' -> forall b x d, 0 < b -> wf x -> shape x = b :: s -> diag_chain b m x (numel s') d ->
      exact_back m (numel s') b x d (numel s) (n_params m)) /\
    (forall ms s s', typed_seq (K := K) ms s s' -> forall b x d, 0 < b -> wf x -> shape x = b :: s ->
      seq_diag_chain (diag_chain b) b ms x (numel s') d -> exact_back (Seq true ms) (numel s') b x d (numel s) (seq_np ms)).
  Proof.
    apply typed_both.
    - intros l s s' Ty b x d Hb Wx Sx _ q Hq. destruct (fwd_total _ _ _ b x (ty_leaf l s s' Ty) Hb Wx Sx) as (y & Fy & Wy & Sy).
      cbn [dpull dpullw]. rewrite Fy, (width_of _ _ _ Sy). split; intros j Hj; rewrite pull_diag; apply bsum_ext; intros i Hi.
      + now rewrite (layer_J_in (Leaf l) s s' b) by (auto; now constructor).
      + now rewrite (layer_J_w (Leaf l) s s' b) by (auto; now constructor).
    - intros l s s' Ty b x d Hb Wx Sx _ q Hq. destruct (fwd_total _ _ _ b x (ty_pool l s s' Ty) Hb Wx Sx) as (y & Fy & Wy & Sy).
      cbn [dpull dpullw]. rewrite Fy, (width_of _ _ _ Sy). split; intros j Hj; [rewrite pull_diag; apply bsum_ext; intros i Hi|].
      + now rewrite (layer_J_in (MaxPool l) s s' b) by (auto; now constructor).
      + cbn in Hj. lia.
    - intros ms s s' Ty IH b x d Hb Wx Sx C. exact (IH b x d Hb Wx Sx C).
    - intros ms c c' r Ty IH b x d Hb Wx Sx C q Hq.
      assert (N' : numel (c + c' :: r) = numel (c :: r) + numel (c' :: r)) by (numels; ring).
      pose proof (width_of _ _ _ Sx) as Wd. assert (Pd : per x = numel (c :: r)) by now apply (per_shape x b).
      cbn [diag_chain] in C. rewrite N', Wd in C. replace (numel (c :: r) + numel (c' :: r) - numel (c :: r)) with (numel (c' :: r)) in C by lia.
      destruct (IH b x _ Hb Wx Sx C q Hq) as [I1 I2]. rewrite N'. set (l1 := numel (c :: r)) in *. set (l2 := numel (c' :: r)) in *.
      split; intros j Hj; cbn [dpull dpullw JX JW]; rewrite Wd, Pd.
      + rewrite pull_at_skip by auto. change (dpull (Seq true ms) x) with (seq_dpull dpull ms x) in I1. cbn [JX] in I1 |- *.
        rewrite (bsum_0 l2 (fun k => nmul (dmat d q j (l1 + k)) _)). 2:{ intros k Hk. unfold dmat. destruct (Nat.eqb_spec j (l1 + k)); [lia|ring]. }
        rewrite (bsum_0 l2 (fun k => nmul (dmat d q (l1 + k) j) _)). 2:{ intros k Hk. unfold dmat. destruct (Nat.eqb_spec (l1 + k) j); [lia|ring]. }
        unfold dmat at 2. rewrite Nat.eqb_refl. cbn [dpull]. rewrite I1 by auto. 
        rewrite (pull_at_ext _ (seq_JX JX ms x) (seq_JX JX ms x) (dmat (fun q i => d q (l1 + i))) (fun q i k => dmat d q (l1 + i) (l1 + k))); auto; [ring|].
        intros i k Hi Hk. unfold dmat. destruct (Nat.eqb_spec i k), (Nat.eqb_spec (l1 + i) (l1 + k)); auto; lia.
      + cbn [n_params] in Hj. cbn [dpullw JW] in I2. rewrite I2 by auto. unfold pull_at. rewrite bsum_app.
        rewrite (bsum_0 l1). 2:{ intros a Ha. apply bsum_0. intros. destruct (Nat.ltb_spec a l1); [ring|lia]. }
        match goal with |- ?a = nadd n0 ?b => transitivity b; [|ring] end.
        apply bsum_ext. intros a Ha. rewrite bsum_app.
        rewrite (bsum_0 l1). 2:{ intros a' Ha'. destruct (Nat.ltb_spec a' l1); [ring|lia]. }
        match goal with |- ?a = nadd n0 ?b => transitivity b; [|ring] end.
        apply bsum_ext. intros a' Ha'.
        destruct (Nat.ltb_spec (l1 + a) l1); [lia|]. destruct (Nat.ltb_spec (l1 + a') l1); [lia|].
        replace (l1 + a - l1) with a by lia; replace (l1 + a' - l1) with a' by lia. f_equal. f_equal.
        unfold dmat. destruct (Nat.eqb_spec a a'), (Nat.eqb_spec (l1 + a) (l1 + a')); auto; lia.
    - intros s Hs b x d Hb Wx Sx _ q Hq. split; intros j Hj; cbn [dpull JX seq_dpull seq_JX]; [|cbn in Hj; lia].
      rewrite pull_at_delta by auto. unfold dmat. now rewrite Nat.eqb_refl.
    - intros m ms s s1 s2 Tm IHm Ts IHs b x d Hb Wx Sx C q Hq.
      destruct (fwd_total _ _ _ b x Tm Hb Wx Sx) as (y & Fy & Wy & Sy). cbn [seq_diag_chain] in C. rewrite Fy, (width_of _ _ _ Sy) in C.
      destruct C as (Cs & Od & Cm). set (d1 := seq_dpull dpull ms y d) in *.
      destruct (IHs b y d Hb Wy Sy Cs q Hq) as [I1 I2]. destruct (IHm b x d1 Hb Wx Sx Cm q Hq) as [J1 J2].
      assert (Py : per y = numel s1) by (unfold per; now rewrite Sy).
      assert (M1 : forall i k, i < numel s1 -> k < numel s1 -> dmat d1 q i k = pull_at (numel s2) (seq_JX JX ms y) (dmat d) q i k).
      { intros i k Hi Hk. unfold dmat at 1. destruct (Nat.eqb_spec i k) as [->|Ne]; [now apply I1|]. rewrite <- (Od q i k Hq Hi Hk Ne).
        apply pull_at_ext; auto; intros; now apply (layer_J_seq ms s1 s2 b). }
      split; intros j Hj.
      + cbn [dpull JX seq_dpull seq_JX]. rewrite Fy. fold d1. rewrite J1 by auto.
        rewrite (pull_at_ext _ _ (JX m x) _ (pull_at (numel s2) (seq_JX JX ms y) (dmat d))) by auto.
        rewrite pull_at_comp. apply pull_at_ext; auto; intros; cbn [seq_JX]; now rewrite Py.
      + cbn [dpullw JW seq_dpullw seq_JW]. rewrite Fy. fold d1. change (seq_np (m :: ms)) with (n_params m + seq_np ms) in Hj.
        destruct (Nat.ltb_spec j (n_params m)) as [L|L].
        * rewrite J2 by auto. rewrite (pull_at_ext _ _ (JW m x) _ (pull_at (numel s2) (seq_JX JX ms y) (dmat d))) by auto.
          rewrite pull_at_comp. apply pull_at_ext; auto; intros; rewrite Py; destruct (Nat.ltb_spec j (n_params m)); auto; lia.
        * change (seq_dpullw dpullw ms y d) with (dpullw (Seq true ms) y d). rewrite I2 by lia. cbn [JW]. unfold pull_at.
          apply bsum_ext; intros a Ha; apply bsum_ext; intros a' Ha'. destruct (Nat.ltb_spec j (n_params m)); [lia|reflexivity].
  Qed.

  Definition exact_forth m b x (d : D) (n N : nat) : Prop := forall q, q < b -> forall i, i < n ->
    dpush m x d q i = push_at N (JX m x) (dmat d) q i i.
  Lemma push_exact :
    (forall m s s', typed (K := K) m s s' -> forall b x d, 0 < b -> wf x -> shape x = b :: s -> push_chain b m x d ->
      exact_forth m b x d (numel s') (numel s)) /\
    (forall ms s s', typed_seq (K := K) ms s s' -> forall b x d, 0 < b -> wf x -> shape x = b :: s ->
      seq_push_chain (push_chain b) b ms x d -> exact_forth (Seq true ms) b x d (numel s') (numel s)).
  Proof.
    apply typed_both.
    - intros l s s' Ty b x d Hb Wx Sx _ q Hq i Hi. cbn [dpush]. rewrite (width_of _ _ _ Sx), push_diag. apply bsum_ext; intros j Hj.
      now rewrite (layer_J_in (Leaf l) s s' b) by (auto; now constructor).
    - intros l s s' Ty b x d Hb Wx Sx _ q Hq i Hi. cbn [dpush]. rewrite (width_of _ _ _ Sx), push_diag. apply bsum_ext; intros j Hj.
      now rewrite (layer_J_in (MaxPool l) s s' b) by (auto; now constructor).
    - intros ms s s' Ty IH b x d Hb Wx Sx C. exact (IH b x d Hb Wx Sx C).
    - intros ms c c' r Ty IH b x d Hb Wx Sx C q Hq i Hi.
      assert (N' : numel (c + c' :: r) = numel (c :: r) + numel (c' :: r)) by (numels; ring).
      pose proof (width_of _ _ _ Sx) as Wd. assert (Pd : per x = numel (c :: r)) by now apply (per_shape x b).
      pose proof (IH b x d Hb Wx Sx C q Hq) as I1.
      change (dpush (Skip (Seq true ms)) x d q i) with (if i <? width x then d q i else dpush (Seq true ms) x d q (i - width x)).
      change (JX (Skip (Seq true ms)) x) with (fun q i j => if i <? per x then delta i j else JX (Seq true ms) x q (i - per x) j).
      rewrite Wd, Pd. destruct (Nat.ltb_spec i (numel (c :: r))).
      + rewrite push_skip_11 by auto. unfold dmat. now rewrite Nat.eqb_refl.
      + rewrite push_skip_22 by auto. apply I1. lia.
    - intros s Hs b x d Hb Wx Sx _ q Hq i Hi. cbn [dpush JX seq_dpush seq_JX].
      rewrite push_at_delta by auto. unfold dmat. now rewrite Nat.eqb_refl.
    - intros m ms s s1 s2 Tm IHm Ts IHs b x d Hb Wx Sx C q Hq i Hi.
      destruct (fwd_total _ _ _ b x Tm Hb Wx Sx) as (y & Fy & Wy & Sy). cbn [seq_push_chain] in C. rewrite Fy, (width_of _ _ _ Sy), (width_of _ _ _ Sx) in C.
      destruct C as (Cm & Od & Cs). pose proof (IHm b x d Hb Wx Sx Cm q Hq) as J1. pose proof (IHs b y _ Hb Wy Sy Cs q Hq) as I1.
      assert (Py : per y = numel s1) by (unfold per; now rewrite Sy).
      cbn [dpush seq_dpush]. rewrite Fy. change (seq_dpush dpush ms y) with (dpush (Seq true ms) y).
      rewrite (push_at_ext (numel s) (JX (Seq true (m :: ms)) x) (fun q i j => bsum (numel s1) (fun k => nmul (seq_JX JX ms y q i k) (JX m x q k j))) (dmat d) (dmat d))
        by (auto; intros; cbn [JX seq_JX]; now rewrite Fy, Py).
      rewrite <- push_at_comp. destruct ms as [|m2 ms].
      + inversion Ts; subst. cbn [dpush seq_dpush seq_JX]. rewrite push_at_delta by auto. now apply J1.
      + rewrite I1 by auto. apply push_at_ext; auto. intros k k' Hk Hk'. unfold dmat at 1. destruct (Nat.eqb_spec k k') as [<-|Ne]; [now apply J1|].
        rewrite <- (Od ltac:(discriminate) q k k' Hq Hk Hk' Ne). apply push_at_ext; auto; intros; now apply (layer_J_in m s s1 b).
  Qed.

  Lemma dmat_shift n (d : D) q i k : dmat (fun q p => d q (n + p)) q i k = dmat d q (n + i) (n + k).
  Proof. unfold dmat. destruct (Nat.eqb_spec i k), (Nat.eqb_spec (n + i) (n + k)); auto; lia. Qed.
  Lemma pushw_exact :
    (forall m s s', typed (K := K) m s s' -> forall b x d, 0 < b -> wf x -> shape x = b :: s -> pushw_chain b m x d ->
      forall q i, q < b -> i < numel s' -> dpushw m x d q i = push_at (n_params m) (JW m x) (dmat d) q i i) /\
    (forall ms s s', typed_seq (K := K) ms s s' -> forall b x d acc, 0 < b -> wf x -> shape x = b :: s ->
      seq_pushw_chain (pushw_chain b) b ms x d acc -> forall q i, q < b -> i < numel s' ->
      seq_dpushw dpushw ms x d acc q i = nadd (push_at (numel s) (seq_JX JX ms x) (dmat acc) q i i)
                                             (push_at (seq_np ms) (seq_JW JW ms x) (dmat d) q i i)).
  Proof.
    apply typed_both.
    - intros l s s' Ty b x d Hb Wx Sx _ q i Hq Hi. cbn [dpushw]. rewrite push_diag. apply bsum_ext; intros j Hj.
      now rewrite (layer_J_w (Leaf l) s s' b) by (auto; now constructor).
    - intros l s s' Ty b x d Hb Wx Sx _ q i Hq Hi. reflexivity.
    - intros ms s s' Ty IH b x d Hb Wx Sx C q i Hq Hi. cbn [dpushw]. rewrite (IH b x d _ Hb Wx Sx C q i Hq Hi).
      rewrite (push_at_0 (numel s)). 2:{ intros. unfold dmat. now destruct Nat.eqb. }
      match goal with |- nadd n0 ?a = _ => transitivity a; [ring|reflexivity] end.
    - intros ms c c' r Ty IH b x d Hb Wx Sx C q i Hq Hi.
      assert (N' : numel (c + c' :: r) = numel (c :: r) + numel (c' :: r)) by (numels; ring).
      pose proof (width_of _ _ _ Sx) as Wd. assert (Pd : per x = numel (c :: r)) by now apply (per_shape x b).
      change (JW (Skip (Seq true ms)) x) with (fun q i j => if i <? per x then n0 else JW (Seq true ms) x q (i - per x) j).
      change (n_params (Skip (Seq true ms))) with (seq_np ms).
      rewrite push_skip_w. rewrite Pd. set (F := Seq true ms) in *. cbn [dpushw]. rewrite Wd. destruct (Nat.ltb_spec i (numel (c :: r))); destruct (Nat.leb_spec (numel (c :: r)) i); try lia; cbn [andb]; auto.
      unfold F. cbn [dpushw JW]. rewrite (IH b x d _ Hb Wx Sx C q (i - numel (c :: r)) Hq) by lia.
      rewrite (push_at_0 (numel (c :: r))). 2:{ intros. unfold dmat. now destruct Nat.eqb. }
      match goal with |- nadd n0 ?a = _ => transitivity a; [ring|reflexivity] end.
    - intros s Hs b x d acc Hb Wx Sx _ q i Hq Hi. cbn [seq_dpushw seq_JX seq_JW]. rewrite push_at_delta by auto.
      change (push_at (seq_np []) (fun _ _ _ => n0) (dmat d) q i i) with (@n0 K _). unfold dmat. rewrite Nat.eqb_refl. ring.
    - intros m ms s s1 s2 Tm IHm Ts IHs b x d acc Hb Wx Sx C q i Hq Hi.
      destruct (fwd_total _ _ _ b x Tm Hb Wx Sx) as (y & Fy & Wy & Sy). cbn [seq_pushw_chain] in C. rewrite Fy, (width_of _ _ _ Sy), (width_of _ _ _ Sx) in C.
      destruct C as (Ca & Cm & Od & Cs). pose proof (IHm b x d Hb Wx Sx Cm q) as J1.
      pose proof (proj1 push_exact m s s1 Tm b x acc Hb Wx Sx Ca q Hq) as J2.
      pose proof (IHs b y _ _ Hb Wy Sy Cs q i Hq Hi) as I1.
      assert (Py : per y = numel s1) by (unfold per; now rewrite Sy).
      cbn [seq_dpushw]. rewrite Fy, I1. set (A1 := fun q i => nadd (dpush m x acc q i) (dpushw m x d q i)).
      assert (EX : push_at (numel s) (seq_JX JX (m :: ms) x) (dmat acc) q i i = push_at (numel s1) (seq_JX JX ms y) (push_at (numel s) (JX m x) (dmat acc)) q i i).
      { rewrite push_at_comp. apply push_at_ext; auto; intros; cbn [seq_JX]; now rewrite Fy, Py. }
      assert (EW : push_at (seq_np (m :: ms)) (seq_JW JW (m :: ms) x) (dmat d) q i i =
         nadd (push_at (numel s1) (seq_JX JX ms y) (push_at (n_params m) (JW m x) (dmat d)) q i i)
           (push_at (seq_np ms) (seq_JW JW ms y) (dmat (fun q p => d q (n_params m + p))) q i i)).
      { change (seq_np (m :: ms)) with (n_params m + seq_np ms). rewrite push_at_split.
        2:{ intros p p' Hp Hp'. unfold dmat. destruct (Nat.eqb_spec p (n_params m + p')), (Nat.eqb_spec (n_params m + p') p); try lia; auto. }
        rewrite push_at_comp. f_equal; apply push_at_ext; auto.
        - intros p Hp. cbn [seq_JW]. rewrite Fy, Py. destruct (Nat.ltb_spec p (n_params m)); [reflexivity|lia].
        - intros p Hp. cbn [seq_JW]. rewrite Fy, Py. destruct (Nat.ltb_spec p (n_params m)); [reflexivity|lia].
        - intros p Hp. cbn [seq_JW]. rewrite Fy. destruct (Nat.ltb_spec (n_params m + p) (n_params m)); [lia|]. now replace (n_params m + p - n_params m) with p by lia.
        - intros p Hp. cbn [seq_JW]. rewrite Fy. destruct (Nat.ltb_spec (n_params m + p) (n_params m)); [lia|]. now replace (n_params m + p - n_params m) with p by lia.
        - intros p p' Hp Hp'. symmetry. apply dmat_shift. }
      rewrite EX, EW.
      assert (EA : push_at (numel s1) (seq_JX JX ms y) (dmat A1) q i i =
        push_at (numel s1) (seq_JX JX ms y) (fun q i k => nadd (push_at (numel s) (JX m x) (dmat acc) q i k) (push_at (n_params m) (JW m x) (dmat d) q i k)) q i i).
      { destruct ms as [|m2 ms].
        - inversion Ts; subst. cbn [seq_JX]. rewrite !push_at_delta by auto. unfold dmat at 1. rewrite Nat.eqb_refl. unfold A1. now rewrite J1, J2 by auto.
        - apply push_at_ext; auto. intros k k' Hk Hk'. unfold dmat at 1. destruct (Nat.eqb_spec k k') as [<-|Ne].
          + unfold A1. now rewrite J1, J2 by auto.
          + rewrite <- (Od ltac:(discriminate) q k k' Hq Hk Hk' Ne). f_equal; apply push_at_ext; auto; intros.
            * now apply (layer_J_in m s s1 b).
            * now apply (layer_J_in m s s1 b).
            * now apply (layer_J_w m s s1 b).
            * now apply (layer_J_w m s s1 b). }
      rewrite EA, push_at_add. ring.
  Qed.

  (** stated with the matrix that jacobian returns *)
  Lemma back_exact m s s' b x d : typed m s s' -> 0 < b -> wf x -> shape x = b :: s -> diag_chain b m x (numel s') d ->
    (forall q j, q < b -> j < numel s -> dpull m x d q j = pull_at (numel s') (layer_J m x Input) (dmat d) q j j) /\
    (forall q p, q < b -> p < n_params m -> dpullw m x d q p = pull_at (numel s') (layer_J m x Weight) (dmat d) q p p).
  Proof.
    intros Ty Hb Wx Sx C. pose proof (proj1 diag_exact m s s' Ty b x d Hb Wx Sx C) as E. split; intros q j Hq Hj; destruct (E q Hq) as [E1 E2].
    - rewrite E1 by auto. apply pull_at_ext; auto; intros; symmetry; now apply (layer_J_in m s s' b).
    - rewrite E2 by auto. apply pull_at_ext; auto; intros; symmetry; now apply (layer_J_w m s s' b).
  Qed.
  Lemma forth_exact m s s' b x : typed m s s' -> 0 < b -> wf x -> shape x = b :: s ->
    (forall d, push_chain b m x d -> forall q i, q < b -> i < numel s' -> dpush m x d q i = push_at (numel s) (layer_J m x Input) (dmat d) q i i) /\
    (forall d, pushw_chain b m x d -> forall q i, q < b -> i < numel s' -> dpushw m x d q i = push_at (n_params m) (layer_J m x Weight) (dmat d) q i i).
  Proof.
    intros Ty Hb Wx Sx. split; intros d C q i Hq Hi.
    - rewrite (proj1 push_exact m s s' Ty b x d Hb Wx Sx C q Hq i Hi). apply push_at_ext; auto; intros; symmetry; now apply (layer_J_in m s s' b).
    - rewrite (proj1 pushw_exact m s s' Ty b x d Hb Wx Sx C q i Hq Hi). apply push_at_ext; auto; intros; symmetry; now apply (layer_J_w m s s' b).
  Qed.

  (** the default metric: ones on the diagonal *)
  Lemma default_metric h ms s s' b st x : typed (Seq h ms) s s' -> all_sym (Seq h ms) -> 0 < b -> wf x -> shape x = b :: s ->
    snd (jTmjp (Seq h ms) st x None VNone Weight true true true) =
      Ok (if n_params (Seq h ms) =? 0 then VNone else VT (tab2 b (n_params (Seq h ms)) (dpullw (Seq h ms) x (fun _ _ => n1)))) /\
    snd (jTmjp (Seq h ms) st x None VNone Input true true true) =
      Ok (VT (tab2 b (numel s) (dpull (Seq h ms) x (fun _ _ => n1)))).
  Proof.
    intros Ty Sy Hb Wx Sx. destruct (fwd_total _ _ _ b x Ty Hb Wx Sx) as (y & Fy & Wy & Sy').
    set (S := Seq h ms) in *. set (M := @ones K _ [b; numel s']).
    assert (Q : forall w, jTmjp S st x None VNone w true true true = jTmjp S st x None (VT M) w true true true).
    { intros w. unfold S. cbn [jTmjp db_ok negb orb andb]. unfold ensure. rewrite (forward_eta (Seq h ms) st x). fold S. rewrite Fy. cbn [bind]. now rewrite Sy'. }
    assert (WM : wf M) by apply wf_tab.
    destruct (dback_none S s s' b st x M Ty Sy Hb Wx Sx WM eq_refl) as [I1 I2].
    assert (Ag : agree b (numel s') (dvec M) (fun _ _ => n1)).
    { intros q i Hq Hi. unfold dvec, M, ones, fill_with. rewrite get_tab; [reflexivity|]. cbn. auto. }
    rewrite !Q, I1, I2. split; do 2 f_equal.
    - unfold wdiag. destruct Nat.eqb; auto. f_equal. apply tab2_ext. intros. now apply (dpullw_agree S s s' b x).
    - apply tab2_ext. intros. now apply (dpull_agree S s s' b x).
  Qed.
End Exact.

(** nonnegativity *)
Section Pos.
  Local Open Scope R_scope.
  Notation T := (tensor R).
  Definition nneg (d : @dmetric R) : Prop := forall q i, 0 <= d q i.
  Lemma bsum_nneg n (f : nat -> R) : (forall i, (i < n)%nat -> 0 <= f i) -> 0 <= bsum n f.
  Proof.
    intros P. induction n as [|n IH]; [apply Rle_refl|]. cbn [bsum]. cbn [nadd Num_R].
    apply Rplus_le_le_0_compat; [apply IH; intros; apply P; lia|apply P; lia].
  Qed.
  Lemma sq_nneg (a d : R) : 0 <= d -> 0 <= a * d * a.
  Proof. intros. replace (a * d * a) with (d * (a * a)) by ring. apply Rmult_le_pos; auto. apply Rle_0_sqr. Qed.
  Lemma diag_pull_nneg n J d : nneg d -> nneg (diag_pull n J d).
  Proof. intros P q j. apply bsum_nneg. intros. now apply sq_nneg. Qed.
  Lemma diag_push_nneg n J d : nneg d -> nneg (diag_push n J d).
  Proof. intros P q j. apply bsum_nneg. intros. now apply sq_nneg. Qed.
  Lemma dpull_nneg : forall m (x : T) d, nneg d -> nneg (dpull m x d).
  Proof.
    refine (module_ind2 (fun m => forall (x : T) d, nneg d -> nneg (dpull m x d)) (fun ms => forall (x : T) d, nneg d -> nneg (seq_dpull dpull ms x d)) _ _ _ _ _ _).
    - intros l x d P. cbn [dpull]. destruct fwd; auto. now apply diag_pull_nneg.
    - intros l x d P. cbn [dpull]. destruct fwd; auto. now apply diag_pull_nneg.
    - intros h ms IH x d P. now apply IH.
    - intros F IH x d P q j. cbn [dpull]. apply Rplus_le_le_0_compat; [apply P|]. apply IH. intros q' i. apply P.
    - intros x d P. exact P.
    - intros m ms IHm IHs x d P. cbn [seq_dpull]. destruct fwd; auto.
  Qed.
  Lemma seq_dpull_nneg ms : forall (x : T) d, nneg d -> nneg (seq_dpull dpull ms x d).
  Proof. intros x d P. exact (dpull_nneg (Seq true ms) x d P). Qed.
  Lemma dpullw_nneg : forall m (x : T) d, nneg d -> nneg (dpullw m x d).
  Proof.
    refine (module_ind2 (fun m => forall (x : T) d, nneg d -> nneg (dpullw m x d)) (fun ms => forall (x : T) d, nneg d -> nneg (seq_dpullw dpullw ms x d)) _ _ _ _ _ _).
    - intros l x d P. cbn [dpullw]. destruct fwd; auto. now apply diag_pull_nneg.
    - intros l x d P. cbn [dpullw]. destruct fwd; auto. now apply diag_pull_nneg.
    - intros h ms IH x d P. now apply IH.
    - intros F IH x d P q j. cbn [dpullw]. apply IH. intros q' i. apply P.
    - intros x d P q i. apply Rle_refl.
    - intros m ms IHm IHs x d P. cbn [seq_dpullw]. destruct fwd; [|intros q i; apply Rle_refl].
      intros q p. destruct Nat.ltb; [apply IHm, seq_dpull_nneg, P|now apply IHs].
  Qed.
  Lemma dpush_nneg : forall m (x : T) d, nneg d -> nneg (dpush m x d).
  Proof.
    refine (module_ind2 (fun m => forall (x : T) d, nneg d -> nneg (dpush m x d)) (fun ms => forall (x : T) d, nneg d -> nneg (seq_dpush dpush ms x d)) _ _ _ _ _ _).
    - intros l x d P. now apply diag_push_nneg.
    - intros l x d P. now apply diag_push_nneg.
    - intros h ms IH x d P. now apply IH.
    - intros F IH x d P q j. cbn [dpush]. destruct Nat.ltb; [apply P|]. now apply IH.
    - intros x d P. exact P.
    - intros m ms IHm IHs x d P. cbn [seq_dpush]. destruct fwd; auto.
  Qed.
  Lemma dpushw_nneg : forall m (x : T) d, nneg d -> nneg (dpushw m x d).
  Proof.
    refine (module_ind2 (fun m => forall (x : T) d, nneg d -> nneg (dpushw m x d)) (fun ms => forall (x : T) d a, nneg d -> nneg a -> nneg (seq_dpushw dpushw ms x d a)) _ _ _ _ _ _).
    - intros l x d P. now apply diag_push_nneg.
    - intros l x d P. now apply diag_push_nneg.
    - intros h ms IH x d P. apply IH; auto. intros q i. apply Rle_refl.
    - intros F IH x d P q j. cbn [dpushw]. destruct Nat.ltb; [apply Rle_refl|]. now apply IH.
    - intros x d a P Q. exact Q.
    - intros m ms IHm IHs x d a P Q. cbn [seq_dpushw]. destruct fwd; auto. apply IHs.
      + intros q p. apply P.
      + intros q i. apply Rplus_le_le_0_compat; [now apply dpush_nneg|now apply IHm].
  Qed.

  (** a metric only constrained within its range *)
  Definition clip (b n : nat) (d : @dmetric R) : @dmetric R := fun q i => if (q <? b)%nat && (i <? n)%nat then d q i else 0.
  Lemma clip_agree b n d : agree b n (clip b n d) d.
  Proof. intros q i Hq Hi. unfold clip. apply Nat.ltb_lt in Hq, Hi. now rewrite Hq, Hi. Qed.
  Lemma clip_nneg b n d : (forall q i, (q < b)%nat -> (i < n)%nat -> 0 <= d q i) -> nneg (clip b n d).
  Proof. intros P q i. unfold clip. destruct (Nat.ltb_spec q b), (Nat.ltb_spec i n); cbn; try apply Rle_refl. now apply P. Qed.
  Lemma dback_nneg m s s' b (x : T) d : typed m s s' -> (0 < b)%nat -> wf x -> shape x = b :: s ->
    (forall q i, (q < b)%nat -> (i < numel s')%nat -> 0 <= d q i) ->
    (forall q j, (q < b)%nat -> (j < numel s)%nat -> 0 <= dpull m x d q j) /\
    (forall q p, (q < b)%nat -> (p < n_params m)%nat -> 0 <= dpullw m x d q p).
  Proof.
    intros Ty Hb Wx Sx P. pose proof (clip_nneg _ _ _ P) as Q. split; intros q j Hq Hj.
    - rewrite <- (dpull_agree m s s' b x _ _ Ty Hb Wx Sx (clip_agree b (numel s') d) q j Hq Hj). now apply dpull_nneg.
    - rewrite <- (dpullw_agree m s s' b x _ _ Ty Hb Wx Sx (clip_agree b (numel s') d) q j Hq Hj). now apply dpullw_nneg.
  Qed.
  Lemma dforth_nneg m s s' b (x : T) d : typed m s s' -> (0 < b)%nat -> wf x -> shape x = b :: s ->
    ((forall q i, (q < b)%nat -> (i < numel s)%nat -> 0 <= d q i) ->
     forall q j, (q < b)%nat -> (j < numel s')%nat -> 0 <= dpush m x d q j) /\
    ((forall q p, (q < b)%nat -> (p < n_params m)%nat -> 0 <= d q p) ->
     forall q j, (q < b)%nat -> (j < numel s')%nat -> 0 <= dpushw m x d q j).
  Proof.
    intros Ty Hb Wx Sx. split; intros P q j Hq Hj; pose proof (clip_nneg _ _ _ P) as Q.
    - rewrite <- (dpush_agree m s s' b x _ _ Ty Hb Wx Sx (clip_agree b (numel s) d) q j Hq Hj). now apply dpush_nneg.
    - rewrite <- (dpushw_agree m s s' b x _ _ Ty Hb Wx Sx (clip_agree b (n_params m) d) q j Hq Hj). now apply dpushw_nneg.
  Qed.
End Pos.

Section Tensors.
  Context {K} `{CR : CRing K}.
  Notation T := (tensor K).
  (** the parameters' metric given as one (b, n_params) tensor *)
  Lemma dforth_weight m s s' b st x (M : T) : typed m s s' -> fwdable m -> 0 < b -> wf x -> shape x = b :: s -> n_params m <> 0 ->
    wf M -> shape M = [b; n_params m] ->
    snd (jmjTp m st x None (VT M) Weight true true true) = Ok (VT (tab2 b (numel s') (dpushw m x (fun q p => get n0 M [q; p])))).
  Proof.
    intros Ty Fb Hb Wx Sx Hn WM SM. destruct (dforth_none m s s' b st x Ty Fb Hb Wx Sx) as [_ I].
    pose proof (rep_block true b (dmat (dvec M)) m 0 Hn) as R.
    assert (E : block true b (n_params m) 0 (dmat (dvec M)) = M).
    { transitivity (tab2 b (n_params m) (dvec M)); [|symmetry; now apply (tab2_eq n0)]. apply tab2_ext. intros q j Hq Hj. unfold dmat. now rewrite Nat.eqb_refl. }
    rewrite E in R. exact (I Hn (dvec M) 0 (VT M) R).
  Qed.
End Tensors.

(** a network whose metrics stay diagonal below the Linear layers: Linear(2,2) - ReLU - Linear(2,2) with a diagonal weight - ReLU *)
From Verif Require Import Examples.
Definition netD : module Z := Seq true [
  Leaf (Linear (tz [2; 2] [1; 2; 3; (-1)]%Z) (Some (tz [2] [1; (-2)]%Z)));
  Leaf (Act ReLU);
  Leaf (Linear (tz [2; 2] [3; 0; 0; 2]%Z) (Some (tz [2] [1; 1]%Z)));
  Leaf (Act ReLU)].
Lemma netD_typed : typed netD [2] [2].
Proof.
  apply ty_seq. eapply tys_cons; [|eapply tys_cons; [|eapply tys_cons; [|eapply tys_cons; [|apply tys_nil]]]].
  1-4: apply ty_leaf with (s' := [2]); leaf_dom; vm_compute; lia.
  vm_compute; lia.
Qed.
Definition dD : @dmetric Z := fun q i => Z.of_nat (1 + q + i).
Lemma netD_chain : diag_chain 2 netD xA 2 dD.
Proof.
  assert (R : forall (P : nat -> nat -> nat -> Z), P 0 0 1 = 0%Z -> P 0 1 0 = 0%Z -> P 1 0 1 = 0%Z -> P 1 1 0 = 0%Z ->
    forall q i k, q < 2 -> i < 2 -> k < 2 -> i <> k -> P q i k = 0%Z).
  { intros P A B C D q i k Hq Hi Hk N. destruct q as [|[|q]], i as [|[|i]], k as [|[|k]]; try lia; auto. }
  unfold netD. cbn [diag_chain seq_diag_chain].
  repeat (match goal with |- context [fwd ?m ?x] => let y := fresh "y" in let E := fresh "E" in
     destruct (fwd m x) as [y|] eqn:E; [vm_compute in E; injection E as <-|vm_compute in E; discriminate] end).
  repeat split; try (apply (R (pull_at 2 _ (dmat dD))); vm_compute; reflexivity).
Qed.
(** Linear(2,2) with a diagonal weight - ReLU - Linear(2,2): diagonal up to the last layer, from the input and from the parameters *)
Definition netD' : module Z := Seq true [
  Leaf (Linear (tz [2; 2] [3; 0; 0; 2]%Z) (Some (tz [2] [1; 4]%Z)));
  Leaf (Act ReLU);
  Leaf (Linear (tz [2; 2] [1; 2; 3; (-1)]%Z) (Some (tz [2] [1; (-2)]%Z)))].
Lemma netD'_typed : typed netD' [2] [2].
Proof.
  apply ty_seq. eapply tys_cons; [|eapply tys_cons; [|eapply tys_cons; [|apply tys_nil]]].
  1-3: apply ty_leaf with (s' := [2]); leaf_dom; vm_compute; lia.
  vm_compute; lia.
Qed.
Lemma netD'_chain : push_chain 2 netD' xA dD /\ pushw_chain 2 netD' xA dD.
Proof.
  assert (R : forall (P : nat -> nat -> nat -> Z), P 0 0 1 = 0%Z -> P 0 1 0 = 0%Z -> P 1 0 1 = 0%Z -> P 1 1 0 = 0%Z ->
    forall q i k, q < 2 -> i < 2 -> k < 2 -> i <> k -> P q i k = 0%Z).
  { intros P A B C D q i k Hq Hi Hk N. destruct q as [|[|q]], i as [|[|i]], k as [|[|k]]; try lia; auto. }
  unfold netD'. cbn [push_chain seq_push_chain pushw_chain seq_pushw_chain].
  repeat (match goal with |- context [fwd ?m ?x] => let y := fresh "y" in let E := fresh "E" in
     destruct (fwd m x) as [y|] eqn:E; [vm_compute in E; injection E as <-|vm_compute in E; discriminate] end).
  repeat split; intros Ne; try congruence; clear Ne.
  1-2: match goal with |- context [push_at ?n ?J ?M _ _ _ = _] => apply (R (push_at n J M)); vm_compute; reflexivity end.
  1-2: match goal with |- context [nadd (push_at ?n ?J ?M _ _ _) (push_at ?n' ?J' ?M' _ _ _) = _] => apply (R (fun q i k => nadd (push_at n J M q i k) (push_at n' J' M' q i k))); vm_compute; reflexivity end.
Qed.
