(** The likelihood code, entry by entry. *)
From Coq Require Import String Ascii List Arith ZArith Lia Bool Reals.
From Verif Require Import Scalar Sums Tensor TensorLemmas Conv Abstract Simple LinearLayer ConvLayer PoolLayer Module LogLik Spec OpLemmas Jac
  LeafSpec TreeBase TreeVjp Leaves Trees ValArg.
Import ListNotations.
Local Open Scope nat_scope.
Local Open Scope list_scope.

(** replacing the last coordinate *)
Lemma ravel_last s : forall k j, s <> [] -> k < numel s ->
  ravel s (set_nth (length s - 1) j (unravel s k)) = k / last s 0 * last s 0 + j /\ exists g, numel s = g * last s 0.
Proof.
  induction s as [|d s IH]; intros k j Hs Hk; [congruence|]. destruct s as [|d' s'].
  - cbn [length Nat.sub unravel set_nth last]. cbn [ravel]. rewrite numel_cons, numel_nil, Nat.mul_1_r in Hk. rewrite Nat.div_small by auto.
    rewrite numel_nil. split; [lia|]. exists 1. rewrite numel_cons, numel_nil. lia.
  - remember (d' :: s') as s eqn:Es. assert (Ns : s <> []) by (subst; discriminate).
    replace (length (d :: s) - 1) with (S (length s - 1)) by (subst; cbn; lia). cbn [unravel set_nth ravel].
    replace (last (d :: s) 0) with (last s 0) by (subst; reflexivity).
    rewrite numel_cons in Hk. assert (HN : 0 < numel s) by (destruct (numel s); [lia|lia]).
    pose proof (Nat.mod_upper_bound k (numel s) ltac:(lia)) as Hm. destruct (IH (k mod numel s) j Ns Hm) as [-> [g Eg]].
    split; [|exists (d * g); rewrite numel_cons, Eg; ring]. set (c := last s 0) in *. assert (Hc : c <> 0) by (intros E; rewrite E in Eg; lia).
    enough (E : k / c = k / numel s * g + k mod numel s / c) by (rewrite E, Eg; ring).
    rewrite (Nat.div_mod k (numel s)) at 1 by lia. rewrite Eg at 1. replace (g * c * (k / numel s)) with ((k / numel s * g) * c) by ring.
    now rewrite Nat.div_add_l.
Qed.

Section Flat.
  Context {K} `{Num K}.
  Notation gt := (get (@n0 K _)).
  Notation T := (tensor K).
  Notation nt t k := (nth k (data t) (@n0 K _)).

  (** entry i of the summand of forward, and of the residual, from one sample's outputs and targets *)
  Definition term (k : lik) (c : nat) (t y : nat -> K) (i : nat) : K :=
    match k with
    | LogGaussian => nmul (nopp (ndiv n1 (nnat 2))) (nmul (nsub (y i) (t i)) (nsub (y i) (t i)))
    | LogBinaryBernoulli => let z := nln (nadd (nexp (y i)) (nexp n0)) in
        nadd (nmul (t i) (nsub (y i) z)) (nmul (nsub n1 (t i)) (nsub n0 z))
    | LogBernoulli => nmul (t i) (nsub (y i) (nln (bsum c (fun j => nexp (y (i / c * c + j))))))
    end.
  Definition prob (k : lik) (c : nat) (y : nat -> K) (i : nat) : K :=
    match k with
    | LogGaussian => y i
    | LogBinaryBernoulli => ndiv (nexp (y i)) (nadd n1 (nexp (y i)))
    | LogBernoulli => ndiv (nexp (y i)) (bsum c (fun j => nexp (y (i / c * c + j))))
    end.

  Lemma bop_flat f (a b : T) : wf a -> wf b -> shape a = shape b ->
    exists r, bop f a b = Ok r /\ wf r /\ shape r = shape a /\ forall k, k < numel (shape a) -> nt r k = f (nt a k) (nt b k).
  Proof.
    intros Wa Wb S. rewrite bop_same by auto. eexists. split; [reflexivity|]. split; [apply wf_tab|]. split; [reflexivity|].
    intros k Hk. rewrite flat_tab by auto. unfold get. rewrite <- S, !ravel_unravel by auto. reflexivity.
  Qed.
  Lemma emap_flat f (a : T) k : wf a -> k < numel (shape a) -> nt (emap f a) k = f (nt a k).
  Proof. intros W Hk. apply nth_emap. now rewrite W. Qed.
  Lemma last_sum_flat f g (t : T) b s : wf t -> shape t = b :: s -> s <> [] ->
    exists r, last_sum f g t = Ok r /\ wf r /\ shape r = b :: s /\
      forall q i, q < b -> i < numel s -> nt r (q * numel s + i) = g (bsum (last s 0) (fun j => f (nt t (q * numel s + (i / last s 0 * last s 0 + j))))).
  Proof.
    intros W S Ns. unfold last_sum. rewrite S. eexists. split; [reflexivity|]. split; [apply wf_tab|]. split; [reflexivity|].
    intros q i Hq Hi. assert (L : q * numel s + i < numel (b :: s)) by (rewrite numel_cons; nia).
    rewrite flat_tab by auto. f_equal.
    assert (El : nth (length (b :: s) - 1) (b :: s) 0 = last s 0).
    { clear -Ns. replace (length (b :: s) - 1) with (length s) by (cbn; lia). destruct s as [|d s]; [congruence|]. cbn [length nth].
      clear Ns. revert d. induction s as [|d' s IH]; intros d; [reflexivity|]. cbn [length nth last]. apply IH. }
    rewrite El. apply bsum_ext. intros j Hj. f_equal. unfold get. rewrite S.
    destruct (ravel_last (b :: s) _ j ltac:(discriminate) L) as [-> _].
    replace (last (b :: s) 0) with (last s 0) by (destruct s; [congruence|reflexivity]).
    assert (Hn : 0 < numel s) by lia. destruct (ravel_last s 0 0 Ns Hn) as [_ [g' Eg]].
    f_equal. assert (last s 0 <> 0) by (intros E; rewrite E in Eg; lia).
    rewrite Eg at 1. rewrite Nat.mul_assoc, Nat.div_add_l by auto. rewrite Eg. ring.
  Qed.

  Section Terms.
    Variables (b : nat) (s : list nat) (y t : T).
    Hypothesis (Wy : wf y) (Wt : wf t) (Sy : shape y = b :: s) (St : shape t = b :: s).
    Notation n := (numel s).
    Notation c := (last s 0).
    Let smp (u : T) (q i : nat) : K := nt u (q * n + i).
    Lemma pos q i : q < b -> i < n -> q * n + i < numel (b :: s).
    Proof. intros. rewrite numel_cons. nia. Qed.
    Lemma terms_flat k : (k = LogBernoulli -> s <> []) ->
      exists r, ll_terms k y t = Ok r /\ wf r /\ shape r = b :: s /\ forall q i, q < b -> i < n -> nt r (q * n + i) = term k c (smp t q) (smp y q) i.
    Proof.
      intros Hk. assert (Syt : shape y = shape t) by congruence. destruct k; cbn [ll_terms].
      - destruct (bop_flat nsub y t Wy Wt Syt) as (d & E & Wd & Sd & Hd). unfold tsub. rewrite E. cbn [bind]. eexists. split; [reflexivity|].
        split; [now apply wf_emap|]. split; [cbn; congruence|]. intros q i Hq Hi. pose proof (pos q i Hq Hi).
        rewrite emap_flat by (auto; rewrite Sd, Sy; auto). rewrite Hd by (now rewrite Sy). reflexivity.
      - set (z := emap (fun a => nln (nadd (nexp a) (nexp n0))) y).
        assert (Wz : wf z) by now apply wf_emap. assert (Sz : shape z = b :: s) by exact Sy.
        destruct (bop_flat nsub y z Wy Wz ltac:(congruence)) as (p1 & E1 & W1 & S1 & H1). unfold tsub, tmul, tadd. rewrite E1. cbn [bind].
        destruct (bop_flat nmul t p1 Wt W1 ltac:(congruence)) as (a & E2 & W2 & S2 & H2). rewrite E2. cbn [bind].
        assert (W3 : wf (emap (fun a => nsub n1 a) t)) by now apply wf_emap.
        assert (W4 : wf (emap (fun a => nsub n0 a) z)) by now apply wf_emap.
        destruct (bop_flat nmul _ _ W3 W4) as (e & E5 & W5 & S5 & H5). { cbn. congruence. } rewrite E5. cbn [bind].
        destruct (bop_flat nadd a e W2 W5) as (r & E6 & W6 & S6 & H6). { rewrite S2, S5. reflexivity. } rewrite E6.
        eexists. split; [reflexivity|]. split; [auto|]. split; [congruence|]. intros q i Hq Hi. pose proof (pos q i Hq Hi) as L.
        assert (Sm : forall (f : K -> K) (u : T), shape (emap f u) = shape u) by reflexivity.
        rewrite H6 by (rewrite S2, St; auto). rewrite H2 by (now rewrite St). rewrite H5 by (rewrite Sm, St; auto).
        rewrite H1 by (now rewrite Sy). rewrite !emap_flat by (auto; rewrite ?Sm, ?Sz, ?St; auto). unfold z. rewrite !emap_flat by (auto; rewrite Sy; auto). reflexivity.
      - destruct (last_sum_flat nexp nln y b s Wy Sy (Hk eq_refl)) as (z & Ez & Wz & Sz & Hz). rewrite Ez. cbn [bind]. unfold tsub, tmul.
        destruct (bop_flat nsub y z Wy Wz ltac:(congruence)) as (lp & E1 & W1 & S1 & H1). rewrite E1. cbn [bind].
        destruct (bop_flat nmul t lp Wt W1 ltac:(congruence)) as (r & E2 & W2 & S2 & H2). rewrite E2.
        eexists. split; [reflexivity|]. split; [auto|]. split; [congruence|]. intros q i Hq Hi. pose proof (pos q i Hq Hi) as L.
        rewrite H2 by (now rewrite St). rewrite H1 by (now rewrite Sy). rewrite Hz by auto. reflexivity.
    Qed.
    Lemma softmax_flat : s <> [] -> exists r, softmax y = Ok r /\ wf r /\ shape r = b :: s /\
      forall q i, q < b -> i < n -> nt r (q * n + i) = prob LogBernoulli c (smp y q) i.
    Proof.
      intros Ns. unfold softmax. destruct (last_sum_flat nexp (fun a => a) y b s Wy Sy Ns) as (z & Ez & Wz & Sz & Hz). rewrite Ez. cbn [bind]. unfold tdiv.
      assert (W1 : wf (emap nexp y)) by now apply wf_emap.
      destruct (bop_flat ndiv _ z W1 Wz) as (r & E2 & W2 & S2 & H2). { cbn. congruence. } rewrite E2.
      eexists. split; [reflexivity|]. split; [auto|]. split; [cbn in S2; congruence|]. intros q i Hq Hi. pose proof (pos q i Hq Hi) as L.
      rewrite H2 by (cbn; now rewrite Sy). rewrite emap_flat by (auto; now rewrite Sy). rewrite Hz by auto. reflexivity.
    Qed.
    Lemma residual_flat k : (k = LogBernoulli -> s <> []) ->
      exists r, residual k y t = Ok r /\ wf r /\ shape r = b :: s /\ forall q i, q < b -> i < n -> nt r (q * n + i) = nsub (smp t q i) (prob k c (smp y q) i).
    Proof.
      intros Hk. destruct k; cbn [residual]; unfold tsub.
      - destruct (bop_flat nsub t y Wt Wy ltac:(congruence)) as (d & E & Wd & Sd & Hd). rewrite E. eexists. split; [reflexivity|]. split; [auto|]. split; [congruence|].
        intros q i Hq Hi. rewrite Hd by (rewrite St; now apply pos). reflexivity.
      - assert (Wp : wf (binary_prob y)) by now apply wf_emap.
        destruct (bop_flat nsub t _ Wt Wp) as (d & E & Wd & Sd & Hd). { cbn. congruence. } rewrite E. eexists. split; [reflexivity|]. split; [auto|]. split; [congruence|].
        intros q i Hq Hi. rewrite Hd by (rewrite St; now apply pos). unfold binary_prob. rewrite emap_flat by (auto; rewrite Sy; now apply pos). reflexivity.
      - destruct (softmax_flat (Hk eq_refl)) as (p & Ep & Wp & Sp & Hp). rewrite Ep. cbn [bind].
        destruct (bop_flat nsub t p Wt Wp) as (d & E & Wd & Sd & Hd). { congruence. } rewrite E. eexists. split; [reflexivity|]. split; [auto|]. split; [congruence|].
        intros q i Hq Hi. rewrite Hd by (rewrite St; now apply pos). now rewrite Hp.
    Qed.
  End Terms.

  (** forward: whatever the network, at an input where it returns y *)
  Lemma forward_flat k l (m : module K) h x y t b s :
    0 < b -> hd_error (shape x) = Some b -> fwd m x = Ok y -> wf y -> shape y = b :: s -> wf t -> shape t = b :: s -> (k = LogBernoulli -> s <> []) ->
    snd (ll_forward k l m h x (Some t)) =
      Ok (agg_scalar l (tab1 b (fun q => bsum (numel s) (term k (last s 0) (fun i => nt t (q * numel s + i)) (fun i => nt y (q * numel s + i)))))).
  Proof.
    intros Hb Sx Fy Wy Sy Wt St Hk. unfold ll_forward, size. destruct (shape x) as [|b' sx] eqn:Ex; [discriminate|]. injection Sx as ->. cbn [nth_error].
    pose proof (forward_pure m h x) as Ep. destruct (forward m h x) as [h' r]. cbn [snd] in *. rewrite Ep, Fy. cbn [bind].
    unfold same_shape. rewrite Sy, St. replace (shape_eqb (b :: s) (b :: s)) with true by (symmetry; apply shape_eqb_refl). cbn [check bind].
    destruct (terms_flat b s y t Wy Wt Sy St k Hk) as (r1 & E1 & W1 & S1 & H1). rewrite E1. cbn [bind].
    rewrite (flat_ok r1 b s) by (auto; lia). cbn [bind]. unfold sum1. cbn [shape bind]. do 2 f_equal. unfold tab1. apply tab_ext. intros idx V.
    destruct idx as [|q [|]]; cbn [valid] in V; try tauto. destruct V as [Hq _]. unfold i_. cbn [nth].
    apply bsum_ext. intros i Hi. unfold get. cbn [shape data]. cbn [ravel]. rewrite numel_nil, numel_cons, numel_nil, !Nat.mul_1_r, !Nat.add_0_r. now apply H1.
  Qed.
End Flat.

Section Grad.
  Context {K} `{CR : CRing K}.
  Notation gt := (get (@n0 K _)).
  Notation T := (tensor K).
  Notation nt t k := (nth k (data t) (@n0 K _)).

  (** gradient: the vector-Jacobian product with the residual, then aggregated *)
  Lemma gradient_flat k l (m : module K) h x t b s s' w :
    typed m s s' -> 0 < b -> wf x -> shape x = b :: s -> wf t -> shape t = b :: s' -> (k = LogBernoulli -> s' <> []) -> w <> Other ->
    exists y r, fwd m x = Ok y /\ wf y /\ shape y = b :: s' /\ wf r /\ shape r = [b; numel s'] /\
      (forall q i, q < b -> i < numel s' -> gt r [q; i] = nsub (nt t (q * numel s' + i)) (prob k (last s' 0) (fun i => nt y (q * numel s' + i)) i)) /\
      snd (ll_gradient k l m h x (Some t) w) = bind (snd (vjp m st0 x None r w)) (agg_rows l).
  Proof.
    intros Ty Hb Wx Sx Wt St Hk Hw. destruct (fwd_total m s s' b x Ty Hb Wx Sx) as (y & Fy & Wy & Sy).
    destruct (residual_flat b s' y t Wy Wt Sy St k Hk) as (r & Er & Wr & Sr & Hr).
    exists y, (mkT [b; numel s'] (data r)). split; auto. split; auto. split; auto.
    assert (W' : wf (mkT [b; numel s'] (data r))).
    { unfold wf in *. cbn [data shape]. rewrite Wr, Sr, !numel_cons, numel_nil. ring. }
    split; [exact W'|]. split; [reflexivity|]. split.
    - intros q i Hq Hi. unfold get. cbn [shape data]. cbn [ravel]. rewrite numel_nil, numel_cons, numel_nil, !Nat.mul_1_r, !Nat.add_0_r. now apply Hr.
    - unfold ll_gradient, size. rewrite Sx. cbn [nth_error].
      assert (C : coh m (fst (forward m h x)) x) by (eapply (typed_coh BF BPF); eauto).
      pose proof (vjp_val m s s' w Ty Hw (mkT [b; numel s'] (data r)) b x y st0 _ Hb Wx Sx Fy C) as V. cbn beta in V.
      pose proof (forward_pure m h x) as Ep. destruct (forward m h x) as [h' r1]. cbn [fst snd] in *. rewrite Ep, Fy. cbn [bind].
      unfold same_shape. rewrite Sy, St. replace (shape_eqb (b :: s') (b :: s')) with true by (symmetry; apply shape_eqb_refl). cbn [check bind].
      rewrite Er. cbn [bind]. rewrite (flat_ok r b s') by (auto; lia). cbn [bind]. rewrite V.
      destruct (vjp m h' x (Some y) (mkT [b; numel s'] (data r)) w). reflexivity.
  Qed.
End Grad.
