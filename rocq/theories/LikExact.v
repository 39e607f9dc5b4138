(** When the gradient of LogBernoulli is right. *)
From Coq Require Import List Arith Lia Bool Reals Lra.
From Verif Require Import Scalar Sums Tensor TensorLemmas Abstract Simple Module LogLik Spec Domain Smooth LikSpec LikFlat LikCalc Calc Params TreeBase TreeVjp Leaves Trees ValArg Deriv LikGrad LikMain LikError LikWitness Examples.
Import ListNotations.
Local Open Scope nat_scope.
Local Open Scope list_scope.

(** g is the gradient in the weights of the log-likelihood that forward computes *)
Definition is_weight_gradient (l : loglik) (m : module R) (x tg w0 g : tensor R) : Prop :=
  forall w t0 dw, w t0 = w0 -> moves w t0 dw ->
  exists F, (forall t, exists m', set_weight m (w t) = (m', Ok tt) /\ forall h', snd (ll_forward LogBernoulli l m' h' x (Some tg)) = Ok (Some (mkT [] [F t]))) /\
    derivable_pt_lim F t0 (bsum (n_params m) (fun p => nth p (data g) 0 * nth p (data dw) 0))%R.

(** the line through w0 along coordinate p *)
Definition unit_at (p k : nat) : R := if Nat.eqb k p then 1%R else 0%R.
Definition line (w0 : tensor R) (p : nat) (t : R) : tensor R :=
  mkT (shape w0) (map (fun k => nth k (data w0) 0 + t * unit_at p k)%R (seq 0 (numel (shape w0)))).
Definition dir (sh : list nat) (p : nat) : tensor R := mkT sh (map (unit_at p) (seq 0 (numel sh))).
Lemma nth_map_seq (f : nat -> R) n k : k < n -> nth k (map f (seq 0 n)) 0%R = f k.
Proof. intros H. rewrite (nth_indep _ 0%R (f 0)) by (rewrite map_length, seq_length; auto). rewrite map_nth, seq_nth by auto. reflexivity. Qed.
Lemma line_0 w0 p : wf w0 -> line w0 p 0 = w0.
Proof.
  intros W. destruct w0 as [sh d]. unfold line, wf in *. cbn [shape data] in *. f_equal. apply (nth_ext _ _ 0%R 0%R); [now rewrite map_length, seq_length|].
  intros k Hk. rewrite map_length, seq_length in Hk. rewrite (nth_map_seq (fun k => nth k d 0 + 0 * unit_at p k)%R) by auto. ring.
Qed.
Lemma line_moves w0 p : moves (line w0 p) 0 (dir (shape w0) p).
Proof.
  split; [unfold wf, dir; cbn; now rewrite map_length, seq_length|]. split; [intros t; split; [unfold wf, line; cbn; now rewrite map_length, seq_length|reflexivity]|].
  intros k Hk. unfold dir in *. cbn [shape data] in *. rewrite nth_map_seq by auto.
  apply (dl_ext (fun t => nth k (data w0) 0 + t * unit_at p k)%R); [intros t; unfold line; cbn [data]; rewrite (nth_map_seq (fun k => nth k (data w0) 0 + t * unit_at p k)%R) by auto; reflexivity|].
  eapply dl_eq; [apply dl_plus; [apply dl_const|]; apply (dl_mult (fun t => t) (fun _ => unit_at p k)); [apply dl_id|apply dl_const]|]. cbv beta. ring.
Qed.
Lemma bsum_unit n p (f : nat -> R) : p < n -> bsum n (fun k => f k * unit_at p k)%R = f p.
Proof.
  intros H. etransitivity; [apply (bsum_single n p); [exact H|]|unfold unit_at; rewrite Nat.eqb_refl; ring]. intros j _ Nj. unfold unit_at. destruct (Nat.eqb_spec j p); [congruence|cbn; ring].
Qed.

Lemma error_weight : forall a sh bp l (m : module R) (s s' : list nat) (b : nat) (x tg w0 : tensor R) h,
  ll_init a sh bp = Ok l -> reduces a -> typed m s s' -> 0 < b -> wf x -> shape x = b :: s -> smooth m x -> get_weight m = Ok w0 ->
  wf tg -> shape tg = b :: s' -> s' <> [] ->
  exists g J y, fwd m x = Ok y /\ snd (jacobian m st0 x None Weight) = Ok (Some J) /\
    snd (ll_gradient LogBernoulli l m h x (Some tg) Weight) = Ok (Some g) /\ wf g /\ shape g = [n_params m] /\
    let E p := agg_value_of a b (fun q => bsum (numel s') (fun i => over s' tg y q i * entry J q i p))%R in
    forall w t0 dw, w t0 = w0 -> moves w t0 dw ->
    exists F, (forall t, exists m', set_weight m (w t) = (m', Ok tt) /\ forall h', snd (ll_forward LogBernoulli l m' h' x (Some tg)) = Ok (Some (mkT [] [F t]))) /\
      derivable_pt_lim F t0 (bsum (n_params m) (fun p => (nth p (data g) 0 + E p) * nth p (data dw) 0))%R.
Proof.
  intros a sh bp l m s s' b x tg w0 h I0 Ra Ty Hb Wx Sx Sm Gw Wt St Ns. destruct (init_fields a sh bp l I0) as [<- _].
  exact (weight_gradient_any l m s s' b x tg Ty Hb Wx Sx Wt St Ns Ra w0 h Sm Gw).
Qed.
Lemma error_input : forall a sh bp l (m : module R) (s s' : list nat) (b : nat) (x tg : tensor R) h,
  ll_init a sh bp = Ok l -> reduces a -> typed m s s' -> 0 < b -> wf x -> shape x = b :: s -> smooth m x ->
  wf tg -> shape tg = b :: s' -> s' <> [] ->
  exists g gs J y, fwd m x = Ok y /\ snd (jacobian m st0 x None Input) = Ok (Some J) /\
    snd (ll_gradient LogBernoulli l m h x (Some tg) Input) = Ok (Some g) /\ wf g /\ shape g = [numel s] /\
    (forall j, j < numel s -> nth j (data g) 0%R = agg_value_of a b (fun q => gs q j)) /\
    let E q j := bsum (numel s') (fun i => over s' tg y q i * entry J q i j)%R in
    forall z t0 d, z t0 = x -> moves z t0 d ->
    exists F, (forall t h', snd (ll_forward LogBernoulli l m h' (z t) (Some tg)) = Ok (Some (mkT [] [F t]))) /\
      derivable_pt_lim F t0 (agg_value_of a b (fun q => bsum (numel s) (fun j => (gs q j + E q j) * sample (numel s) d q j)%R)).
Proof.
  intros a sh bp l m s s' b x tg h I0 Ra Ty Hb Wx Sx Sm Wt St Ns. destruct (init_fields a sh bp l I0) as [<- _].
  exact (input_gradient_any l m s s' b x tg Ty Hb Wx Sx Wt St Ns Ra h Sm).
Qed.

Lemma exact_weight : forall a sh bp l (m : module R) (s s' : list nat) (b : nat) (x tg w0 : tensor R) h,
  ll_init a sh bp = Ok l -> reduces a -> typed m s s' -> 0 < b -> wf x -> shape x = b :: s -> smooth m x -> get_weight m = Ok w0 ->
  wf tg -> shape tg = b :: s' -> s' <> [] ->
  exists g J y, fwd m x = Ok y /\ snd (jacobian m st0 x None Weight) = Ok (Some J) /\
    snd (ll_gradient LogBernoulli l m h x (Some tg) Weight) = Ok (Some g) /\
    (is_weight_gradient l m x tg w0 g <-> forall p, p < n_params m ->
       agg_value_of a b (fun q => bsum (numel s') (fun i => over s' tg y q i * entry J q i p))%R = 0%R).
Proof.
  intros a sh bp l m s s' b x tg w0 h I0 Ra Ty Hb Wx Sx Sm Gw Wt St Ns.
  destruct (error_weight a sh bp l m s s' b x tg w0 h I0 Ra Ty Hb Wx Sx Sm Gw Wt St Ns) as (g & J & y & Fy & EJ & Eg & Wg & Sg & D).
  exists g, J, y. split; auto. split; auto. split; auto. cbn zeta in D. split.
  - intros Gr p Hp. destruct (count_weight m w0 (proj1 typed_sized m s s' Ty) Gw) as [W0 S0].
    destruct (D (line w0 p) 0%R (dir (shape w0) p) (line_0 w0 p W0) (line_moves w0 p)) as (F1 & V1 & D1).
    destruct (Gr (line w0 p) 0%R (dir (shape w0) p) (line_0 w0 p W0) (line_moves w0 p)) as (F2 & V2 & D2).
    assert (EF : forall t, F1 t = F2 t).
    { intros t. destruct (V1 t) as (m1 & E1 & A1). destruct (V2 t) as (m2 & E2 & A2). rewrite E1 in E2. injection E2 as <-. specialize (A1 st0). rewrite A2 in A1. now injection A1. }
    assert (D1' : derivable_pt_lim F1 0%R (bsum (n_params m) (fun p0 => nth p0 (data g) 0 * nth p0 (data (dir (shape w0) p)) 0))%R) by (apply (dl_ext F2); auto).
    pose proof (uniqueness_limite F1 0%R _ _ D1 D1') as U.
    assert (N : numel (shape w0) = n_params m) by (rewrite S0, numel_cons, numel_nil; lia).
    assert (Ed : forall f : nat -> R, bsum (n_params m) (fun k => f k * nth k (data (dir (shape w0) p)) 0)%R = f p).
    { intros f. rewrite <- (bsum_unit (n_params m) p f Hp). apply bsum_ext. intros k Hk. unfold dir. cbn [data]. now rewrite nth_map_seq by (rewrite N; auto). }
    rewrite (Ed (fun p => nth p (data g) 0 + agg_value_of a b (fun q => bsum (numel s') (fun i => over s' tg y q i * entry J q i p)))%R) in U.
    rewrite (Ed (fun p => nth p (data g) 0%R)) in U. lra.
  - intros Z w t0 dw Ew Mw. destruct (D w t0 dw Ew Mw) as (F & V & DF). exists F. split; auto. eapply dl_eq; [exact DF|]. apply bsum_ext. intros p Hp. rewrite Z by auto. ring.
Qed.

(** one sample, independent rows: right exactly on probability targets *)
Lemma softmax_pos c (y : nat -> R) i : 0 < c -> (0 < exp (y i) / bsum c (fun j => exp (y (i / c * c + j)%nat)))%R.
Proof. intros Hc. apply Rdiv_lt_0_compat; [apply exp_pos|]. exact (sum_exp_pos c (fun j => y (i / c * c + j)) Hc). Qed.
Lemma sum0R n (f : nat -> R) : (forall i, i < n -> f i = 0%R) -> bsum n f = 0%R.
Proof. exact (bsum_0 n f). Qed.
Lemma agg_one a f : agg_value_of a 1 f = f 0.
Proof. destruct a; unfold agg_value_of; cbn; rewrite ?Rplus_0_l; field. Qed.
Lemma exact_target : forall a sh bp l (m : module R) (s s' : list nat) (x tg w0 : tensor R) h,
  ll_init a sh bp = Ok l -> reduces a -> typed m s s' -> wf x -> shape x = 1 :: s -> smooth m x -> get_weight m = Ok w0 ->
  wf tg -> shape tg = 1 :: s' -> s' <> [] ->
  exists g J, snd (jacobian m st0 x None Weight) = Ok (Some J) /\
    snd (ll_gradient LogBernoulli l m h x (Some tg) Weight) = Ok (Some g) /\
    ((forall u : nat -> R, (forall p, p < n_params m -> bsum (numel s') (fun i => u i * entry J 0 i p)%R = 0%R) -> forall i, i < numel s' -> u i = 0%R) ->
     (is_weight_gradient l m x tg w0 g <-> proper LogBernoulli (last s' 0) (numel s') (sample (numel s') tg 0))).
Proof.
  intros a sh bp l m s s' x tg w0 h I0 Ra Ty Wx Sx Sm Gw Wt St Ns.
  destruct (exact_weight a sh bp l m s s' 1 x tg w0 h I0 Ra Ty ltac:(lia) Wx Sx Sm Gw Wt St Ns) as (g & J & y & Fy & EJ & Eg & Ex).
  exists g, J. split; auto. split; auto. intros Rk. rewrite Ex. clear Ex.
  destruct (grouped_last LogBernoulli s' (proj2 (typed_pos_m m s s' Ty)) (fun _ => Ns) eq_refl) as [Hc _]. split.
  - intros Z g0 Hg. specialize (Rk (fun i => over s' tg y 0 i)).
    assert (Z' : over s' tg y 0 (g0 * last s' 0) = 0%R).
    { apply Rk; auto. intros p Hp. specialize (Z p Hp). rewrite agg_one in Z. exact Z. }
    unfold over, excess in Z'. rewrite Nat.div_mul in Z' by lia.
    pose proof (softmax_pos (last s' 0) (sample (numel s') y 0) (g0 * last s' 0) Hc) as Q. rewrite Nat.div_mul in Q by lia.
    apply Rmult_integral in Z'. destruct Z' as [Z'|Z']; [lra|]. rewrite Z' in Q. lra.
  - intros Pr p Hp. rewrite agg_one. apply sum0R. intros i Hi. unfold over, excess.
    cbn [proper] in Pr. rewrite (Pr (i / last s' 0)); [ring|]. pose proof (Nat.mul_div_le i (last s' 0) ltac:(lia)). lia.
Qed.

(** netL has independent rows *)
Lemma netL_rows : exists J, snd (jacobian netL st0 xL1 None Weight) = Ok (Some J) /\
  forall u : nat -> R, (forall p, p < n_params netL -> bsum (numel [2]) (fun i => u i * entry J 0 i p)%R = 0%R) -> forall i, i < numel [2] -> u i = 0%R.
Proof.
  eexists. split; [cbv -[Rplus Rmult Rminus Ropp Rdiv Rinv exp ln IZR R0 R1 Rlt_dec]; reflexivity|]. intros u Hu i Hi.
  change (n_params netL) with 2 in Hu. change (numel [2]) with 2 in *. pose proof (Hu 0 ltac:(lia)) as H0. pose proof (Hu 1 ltac:(lia)) as H1. clear Hu.
  cbv -[Rplus Rmult Rminus Ropp Rdiv Rinv exp ln IZR R0 R1 Rlt_dec] in H0, H1. destruct i as [|[|]]; [| |lia]; lra.
Qed.
