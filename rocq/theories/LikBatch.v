(** The likelihoods on selected samples of a batch: every method is an aggregate of per-sample terms. *)
From Coq Require Import List Arith Lia Bool Reals Lra.
From Verif Require Import Scalar Sums Tensor TensorLemmas Conv Abstract Simple LinearLayer ConvLayer PoolLayer Module LogLik Spec Domain OpLemmas Jac
  LeafSpec TreeBase TreeVjp Leaves Trees ValArg BatchSpec Batch BatchProofs BatchDiag LikSpec LikFlat LikCalc LikGrad LikHess DiagSpec DiagBack.
Import ListNotations.
Local Open Scope nat_scope.
Local Open Scope list_scope.

Lemma prob_ext k c n (y y' : nat -> R) i : grouped k c n -> (forall i, i < n -> y i = y' i) -> i < n -> prob k c y i = prob k c y' i.
Proof.
  intros G E Hi. destruct k; unfold prob; rewrite ?(E i Hi); auto. destruct (G eq_refl) as (Hc & Hg). f_equal.
  apply bsum_ext. intros j Hj. now rewrite E by (apply in_group; auto).
Qed.
Lemma hess_ext k c n (y y' : nat -> R) i j : grouped k c n -> (forall i, i < n -> y i = y' i) -> i < n -> j < n -> hess k c y i j = hess k c y' i j.
Proof. intros G E Hi Hj. unfold hess. destruct k; auto; now rewrite ?(prob_ext _ c n y y' i G E Hi), ?(prob_ext _ c n y y' j G E Hj). Qed.
Lemma density_ext k c n (t t' y y' : nat -> R) : grouped k c n -> (forall i, i < n -> t i = t' i) -> (forall i, i < n -> y i = y' i) ->
  log_density k c n t y = log_density k c n t' y'.
Proof.
  intros G Et E. rewrite <- !term_density by auto. apply bsum_ext. intros i Hi. unfold term. destruct k; rewrite ?(E i Hi), ?(Et i Hi); auto.
  destruct (G eq_refl) as (Hc & Hg). do 3 f_equal. apply bsum_ext. intros j Hj. now rewrite E by (apply in_group; auto).
Qed.
Lemma agg_single a (f : nat -> R) : agg_value_of a 1 f = f 0.
Proof. destruct a; cbn; unfold Rdiv; try rewrite Rinv_1; ring. Qed.

(** any likelihood object: the per-sample terms do not depend on it *)
Definition lsum0 : loglik := {| ll_agg := AggSum; ll_shape := MDiag; ll_backprop := MExact |}.

Section Net.
  Variables (k : lik) (m : module R) (s s' : list nat) (b : nat) (x : tensor R).
  Hypothesis (Ty : typed m s s') (Bw : batchwise m) (Hb : 0 < b) (Wx : wf x) (Sx : shape x = b :: s).
  Notation N := (numel s').
  Notation c := (last s' 0).
  Let HN : 0 < N := proj2 (typed_pos_m m s s' Ty).

  Lemma sample_pick n f (t : tensor R) q i : selects n f b -> shape t = b :: s' -> q < n -> i < N -> sample N (pick n f t) q i = sample N t (f q) i.
  Proof. intros Hf St Hq Hi. exact (fl_pick (K := R) b n f t s' q i St Hq Hi). Qed.

  Section Target.
    Variable tg : tensor R.
    Hypothesis (Wt : wf tg) (St : shape tg = b :: s') (Hk : k = LogBernoulli -> s' <> []).
    Let G : grouped k c N := grouped_last k s' HN Hk.

    Lemma batch_forward : exists r : nat -> R, forall l n f h, reduces (ll_agg l) -> 0 < n -> selects n f b ->
      snd (ll_forward k l m h (pick n f x) (Some (pick n f tg))) = Ok (Some (mkT [] [agg_value_of (ll_agg l) n (fun i => r (f i))])).
    Proof.
      destruct (fwd_total m s s' b x Ty Hb Wx Sx) as (y & Fy & Wy & Sy).
      exists (fun q => log_density k c N (sample N tg q) (sample N y q)). intros l n f h Ra Hn Hf.
      destruct (fwd_pick m s s' b n f x Ty Bw Hb Wx Sx Hn Hf) as (y' & Fy' & _ & _ & Ey). rewrite Fy in Fy'. injection Fy' as <-.
      rewrite (forward_value k l m s s' n (pick n f tg) Ty Hn (wf_pick n f tg) (shape_pick b n f tg s' St) Hk Ra m h (pick n f x) (pick n f y)).
      - do 4 f_equal. apply agg_ext. intros q Hq. unfold density. apply density_ext; auto; intros i Hi; now apply sample_pick.
      - reflexivity.
      - exact Ey.
      - apply wf_pick.
      - now apply (shape_pick b).
    Qed.

    Lemma residual_pick n f (y r r' : tensor R) : 0 < n -> selects n f b -> shape y = b :: s' ->
      shape r = [b; N] -> wf r' -> shape r' = [n; N] ->
      (forall q i, q < b -> i < N -> get 0%R r [q; i] = (sample N tg q i - prob k c (sample N y q) i)%R) ->
      (forall q i, q < n -> i < N -> get 0%R r' [q; i] = (sample N (pick n f tg) q i - prob k c (sample N (pick n f y) q) i)%R) ->
      r' = pick n f r.
    Proof.
      intros Hn Hf Sy Sr Wr' Sr' E E'. unfold pick. rewrite Sr. cbn [tl]. rewrite <- Sr'. apply (tab_eq (A := R) 0%R); auto. rewrite Sr'. intros idx V.
      destruct idx as [|q [|i [|]]]; cbn [valid] in V; try tauto. destruct V as (Hq & Hi & _). cbn [hd tl].
      etransitivity; [exact (E' q i Hq Hi)|]. etransitivity; [|symmetry; exact (E (f q) i (Hf q Hq) Hi)].
      f_equal; [now apply sample_pick|]. apply (prob_ext k c N); auto. intros j Hj. now apply sample_pick.
    Qed.

    Notation P w := (match w with Input => numel s | _ => n_params m end).
    Lemma vjp_rows w r : w <> Other -> (w = Weight -> n_params m <> 0) -> wf r -> shape r = [b; N] ->
      exists g, snd (vjp m st0 x None r w) = Ok (Some (tab2 b (P w) g)).
    Proof.
      intros Hw Hp Wr Sr. destruct w; [| |congruence].
      - destruct (vjp_input m s s' b x Ty Hb Wx Sx st0 st0 r Wr Sr) as (J & _ & _ & _ & E). rewrite E. eexists. reflexivity.
      - destruct (vjp_weight m s s' b x Ty Hb Wx Sx st0 st0 r Wr Sr) as [Q _]. destruct (Q (Hp eq_refl)) as (J & _ & _ & _ & E). rewrite E. eexists. reflexivity.
    Qed.
    Lemma batch_gradient w : w <> Other -> (w = Weight -> n_params m <> 0) ->
      exists gs : nat -> nat -> R, forall l n f h, reduces (ll_agg l) -> 0 < n -> selects n f b ->
      exists g, snd (ll_gradient k l m h (pick n f x) (Some (pick n f tg)) w) = Ok (Some g) /\ aggregates (ll_agg l) true n (P w) (fun i j _ => gs (f i) j) g.
    Proof.
      intros Hw Hp. destruct (gradient_flat k lsum0 m st0 x tg b s s' w Ty Hb Wx Sx Wt St Hk Hw) as (y & r & Fy & Wy & Sy & Wr & Sr & Hr & _).
      destruct (vjp_rows w r Hw Hp Wr Sr) as (gs & Eg). exists gs. intros l n f h Ra Hn Hf.
      destruct (fwd_pick m s s' b n f x Ty Bw Hb Wx Sx Hn Hf) as (y' & Fy' & _ & _ & Ey). rewrite Fy in Fy'. injection Fy' as <-.
      destruct (gradient_flat k l m h (pick n f x) (pick n f tg) n s s' w Ty Hn (wf_pick n f x) (shape_pick b n f x s Sx)
        (wf_pick n f tg) (shape_pick b n f tg s' St) Hk Hw) as (y' & r' & Fy' & _ & _ & Wr' & Sr' & Hr' & E').
      rewrite Ey in Fy'. injection Fy' as <-.
      rewrite (residual_pick n f y r r' Hn Hf Sy Sr Wr' Sr' Hr Hr') in E'.
      destruct (vjp_pick m s s' b n f x Ty Bw Hb Wx Sx Hn Hf w st0 st0 r Hw Wr Sr) as (o & E1 & E2). rewrite Eg in E1. injection E1 as <-.
      rewrite E2 in E'. cbn [option_map bind] in E'. rewrite (pick_tab2 b n f Hf) in E'.
      destruct (agg_rows_value l n (P w) (fun q => gs (f q)) Ra) as (g & Ea & Wg & Sg & Hg). rewrite Ea in E'. exists g. split; auto.
      split; auto.
    Qed.
  End Target.

  (** ggn: the Hessian of the selected outputs is the selected Hessians *)
  Hypothesis (Hk : k = LogBernoulli -> s' <> [] /\ N = c).
  Let G : grouped k c N := grouped_last k s' HN (fun E => proj1 (Hk E)).
  Notation P w := (match w with Input => numel s | _ => n_params m end).
  Lemma hessian_pick n f (y H H' : tensor R) : 0 < n -> selects n f b -> shape y = b :: s' ->
    shape H = metric_shape (diag_lik k) b N -> wf H' -> shape H' = metric_shape (diag_lik k) n N ->
    (forall q i j, q < b -> i < N -> j < N -> metric (diag_lik k) H q i j = hess k c (sample N y q) i j) ->
    (forall q i j, q < n -> i < N -> j < N -> metric (diag_lik k) H' q i j = hess k c (sample N (pick n f y) q) i j) ->
    H' = pick n f H.
  Proof.
    intros Hn Hf Sy SH WH' SH' E E'.
    assert (EE : forall q i j, q < n -> i < N -> j < N -> metric (diag_lik k) H' q i j = metric (diag_lik k) H (f q) i j).
    { intros q i j Hq Hi Hj. rewrite E', E by auto. apply (hess_ext k c N); auto. intros u Hu. now apply sample_pick. }
    clear E E'. unfold pick. destruct (diag_lik k); cbn [metric_shape] in *; rewrite SH; cbn [tl]; rewrite <- SH'; apply (tab_eq (A := R) 0%R); auto; rewrite SH'; intros idx V.
    - destruct idx as [|q [|i [|]]]; cbn [valid] in V; try tauto. destruct V as (Hq & Hi & _). cbn [hd tl].
      specialize (EE q i i Hq Hi Hi). cbn [metric] in EE. rewrite Nat.eqb_refl in EE. exact EE.
    - destruct idx as [|q [|i [|j [|]]]]; cbn [valid] in V; try tauto. destruct V as (Hq & Hi & Hj & _). cbn [hd tl].
      exact (EE q i j Hq Hi Hj).
  Qed.
  Lemma present_pick' td n f Np (R0 : nat -> nat -> nat -> R) : selects n f b -> pick n f (present td b Np R0) = present td n Np (fun q => R0 (f q)).
  Proof. intros Hf. destruct td; cbn [present]; [apply (pick_tab2 b n f Hf)|apply (pick_tab3 b n f Hf)]. Qed.

  (** jTmjp with the flags of [sh], [bp] returns one tensor *)
  Definition one_tensor (td db : bool) (w : wrt) : Prop :=
    w <> Other /\ (w = Weight -> n_params m <> 0) /\
    if db then diag_lik k = true /\ td = true else nonempty m /\ (w = Weight -> td = true \/ exists lf, m = Leaf lf).
  Lemma jTmjp_one td db w H : all_sym m -> one_tensor td db w -> wf H -> shape H = metric_shape (diag_lik k) b N ->
    exists R0, snd (jTmjp m st0 x None (VT H) w (diag_lik k) td db) = Ok (VT (present td b (P w) R0)) /\ forall n f, 0 < n -> selects n f b -> snd (jTmjp m st0 (pick n f x) None (VT (pick n f H)) w (diag_lik k) td db) = Ok (VT (present td n (P w) (fun q => R0 (f q)))).
  Proof.
    intros Sy (Hw & Hp & O) WH SH. destruct db.
    - destruct O as [Ed ->]. rewrite Ed in *. cbn [metric_shape] in SH. destruct (dback_none m s s' b st0 x H Ty Sy Hb Wx Sx WH SH) as [Di Dw].
      exists (match w with Input => fun q i _ => dpull m x (fun q i => get 0%R H [q; i]) q i | _ => fun q i _ => dpullw m x (fun q i => get 0%R H [q; i]) q i end).
      assert (E : snd (jTmjp m st0 x None (VT H) w true true true) = Ok (VT (present true b (P w)
        (match w with Input => fun q i _ => dpull m x (fun q i => get 0%R H [q; i]) q i | _ => fun q i _ => dpullw m x (fun q i => get 0%R H [q; i]) q i end)))).
      { destruct w; [exact Di| |congruence]. rewrite Dw. unfold wdiag. destruct (Nat.eqb_spec (n_params m) 0); [now specialize (Hp eq_refl)|reflexivity]. }
      split; [exact E|]. intros n f Hn Hf. destruct (dback_pick m s s' b n f x H Ty Bw Hb Wx Sx Hn Hf WH w st0 st0 Sy Hw SH) as (r & E1 & E2).
      rewrite E in E1. injection E1 as <-. rewrite E2. cbn [vpick]. do 2 f_equal. exact (pick_tab2 (K := R) b n f Hf _ _).
    - destruct O as (Ne & Hl).
      assert (E : exists R0, snd (jTmjp m st0 x None (VT H) w (diag_lik k) td false) = Ok (VT (present td b (P w) R0))).
      { destruct w; [| |congruence].
        - destruct (jTmjp_input m s s' b x Ty Hb Wx Sx st0 st0 (diag_lik k) td H Sy Ne WH SH) as (J & _ & _ & _ & E). rewrite E. eexists. reflexivity.
        - destruct (jTmjp_weight m s s' b x Ty Hb Wx Sx st0 st0 (diag_lik k) td H Sy Ne WH SH) as [Q _]. destruct (Q (Hp eq_refl)) as (J & _ & _ & _ & E). rewrite E.
          exists (pull_at N (entry J) (metric (diag_lik k) H)). destruct (Hl eq_refl) as [->|[lf ->]].
          + now rewrite wval_diag by auto.
          + cbn [wval n_params] in *. destruct (Nat.eqb_spec (leaf_n_params lf) 0); [now specialize (Hp eq_refl)|reflexivity]. }
      destruct E as (R0 & E). exists R0. split; [exact E|]. intros n f Hn Hf.
      destruct (jTmjp_pick m s s' b n f x Ty Bw Hb Wx Sx Hn Hf w st0 st0 (diag_lik k) td H Sy Ne Hw WH SH) as (r & E1 & E2).
      rewrite E in E1. injection E1 as <-. rewrite E2. cbn [vpick]. do 2 f_equal. now apply present_pick'.
  Qed.
  Lemma batch_ggn sh bp w : all_sym m -> one_tensor (only_diag sh) (match bp with MApprox => true | _ => false end) w ->
    exists Gs : nat -> nat -> nat -> R, forall a l n f h, ll_init a sh bp = Ok l -> reduces a -> 0 < n -> selects n f b ->
    exists Gt, snd (ll_ggn k l m h (pick n f x) w) = Ok (VT Gt) /\ aggregates a (only_diag sh) n (P w) (fun i u v => Gs (f i) u v) Gt.
  Proof.
    intros Sy O. assert (Hw : w <> Other) by apply O.
    destruct (ggn_flat k lsum0 m s s' b x Ty Hb Wx Sx Hk st0 w Hw) as (y & H & Fy & WH & SH & HH & _).
    destruct (fwd_total m s s' b x Ty Hb Wx Sx) as (y' & Fy' & Wy & Sy'). rewrite Fy in Fy'. injection Fy' as <-.
    destruct (jTmjp_one _ _ w H Sy O WH SH) as (R0 & E0 & E1). exists R0. intros a l n f h I0 Ra Hn Hf. destruct (init_fields _ _ _ _ I0) as (<- & <- & <-).
    destruct (fwd_pick m s s' b n f x Ty Bw Hb Wx Sx Hn Hf) as (y' & Fy' & _ & _ & Ey). rewrite Fy in Fy'. injection Fy' as <-.
    destruct (ggn_flat k l m s s' n (pick n f x) Ty Hn (wf_pick n f x) (shape_pick b n f x s Sx) Hk h w Hw) as (y' & H' & Fy' & WH' & SH' & HH' & E).
    rewrite Ey in Fy'. injection Fy' as <-. rewrite (hessian_pick n f y H H' Hn Hf Sy' SH WH' SH' HH HH') in E.
    change (match ll_shape l with MDiag => true | _ => false end) with (only_diag (ll_shape l)) in E.
    rewrite (E1 n f Hn Hf) in E. cbn [bind] in E.
    destruct (agg_value_present l (only_diag (ll_shape l)) n (P w) (fun q => R0 (f q)) Ra) as (Gt & EG & HG). exists Gt. split; [now rewrite E|exact HG].
  Qed.
End Net.
