(** The likelihood lemmas in the form of the property theorems. *)
From Coq Require Import List Arith Lia Bool Reals Lra.
From Verif Require Import Scalar Sums Tensor TensorLemmas Conv Abstract Simple LinearLayer ConvLayer PoolLayer Module LogLik Spec Domain Smooth OpLemmas Jac
  LeafSpec TreeBase TreeVjp Leaves Trees ValArg Deriv LikSpec LikFlat LikCalc LikGrad LikHess Calc Params DiagSpec DiagBack.
Import ListNotations.
Local Open Scope nat_scope.
Local Open Scope list_scope.

Lemma proper_plain k c n t : k <> LogBernoulli -> proper k c n t.
Proof. destruct k; cbn; auto. congruence. Qed.
Ltac fields I0 := destruct (init_fields _ _ _ _ I0) as (? & ? & ?); subst.

Section Plain.
  Variables (k : lik) (Hk : k <> LogBernoulli).
  Lemma gradient_weight_plain : forall a sh bp l (m : module R) (s s' : list nat) (b : nat) (x tg w0 : tensor R) h,
    ll_init a sh bp = Ok l -> reduces a -> typed m s s' -> 0 < b -> wf x -> shape x = b :: s -> smooth m x -> get_weight m = Ok w0 ->
    wf tg -> shape tg = b :: s' ->
    exists g, snd (ll_gradient k l m h x (Some tg) Weight) = Ok (Some g) /\ wf g /\ shape g = [n_params m] /\
      forall w t0 dw, w t0 = w0 -> moves w t0 dw ->
      exists F, (forall t, exists m', set_weight m (w t) = (m', Ok tt) /\ forall h', snd (ll_forward k l m' h' x (Some tg)) = Ok (Some (mkT [] [F t]))) /\
        derivable_pt_lim F t0 (bsum (n_params m) (fun p => nth p (data g) 0 * nth p (data dw) 0))%R.
  Proof.
    intros a sh bp l m s s' b x tg w0 h I0 Ra Ty Hb Wx Sx Sm Gw Wt St. fields I0.
    apply (weight_gradient k l m s s' b x tg); auto; intros; now apply proper_plain.
  Qed.
  Lemma gradient_input_plain : forall a sh bp l (m : module R) (s s' : list nat) (b : nat) (x tg : tensor R) h,
    ll_init a sh bp = Ok l -> reduces a -> typed m s s' -> 0 < b -> wf x -> shape x = b :: s -> smooth m x ->
    wf tg -> shape tg = b :: s' ->
    exists g gs, snd (ll_gradient k l m h x (Some tg) Input) = Ok (Some g) /\ wf g /\ shape g = [numel s] /\
      (forall j, j < numel s -> nth j (data g) 0%R = agg_value_of a b (fun q => gs q j)) /\
      forall z t0 d, z t0 = x -> moves z t0 d ->
      exists F, (forall t h', snd (ll_forward k l m h' (z t) (Some tg)) = Ok (Some (mkT [] [F t]))) /\
        derivable_pt_lim F t0 (agg_value_of a b (fun q => bsum (numel s) (fun j => gs q j * sample (numel s) d q j)%R)).
  Proof.
    intros a sh bp l m s s' b x tg h I0 Ra Ty Hb Wx Sx Sm Wt St. fields I0.
    apply (input_gradient k l m s s' b x tg); auto; intros; now apply proper_plain.
  Qed.
  Lemma forward_density : forall a sh bp l (m : module R) (s s' : list nat) (b : nat) (x tg : tensor R) h,
    ll_init a sh bp = Ok l -> reduces a -> typed m s s' -> 0 < b -> wf x -> shape x = b :: s -> wf tg -> shape tg = b :: s' ->
    exists y, fwd m x = Ok y /\ snd (ll_forward k l m h x (Some tg)) = Ok (Some (mkT []
      [agg_value_of a b (fun q => log_density k (last s' 0) (numel s') (sample (numel s') tg q) (sample (numel s') y q))])).
  Proof.
    intros a sh bp l m s s' b x tg h I0 Ra Ty Hb Wx Sx Wt St. fields I0. destruct (fwd_total m s s' b x Ty Hb Wx Sx) as (y & Fy & Wy & Sy). exists y. split; auto.
    apply (forward_value k l m s s' b tg); auto; now rewrite Sx.
  Qed.
End Plain.

Lemma gradient_weight_bernoulli : forall a sh bp l (m : module R) (s s' : list nat) (b : nat) (x tg w0 : tensor R) h,
  ll_init a sh bp = Ok l -> reduces a -> typed m s s' -> 0 < b -> wf x -> shape x = b :: s -> smooth m x -> get_weight m = Ok w0 ->
  wf tg -> shape tg = b :: s' -> s' <> [] ->
  (forall q, q < b -> proper LogBernoulli (last s' 0) (numel s') (sample (numel s') tg q)) ->
  exists g, snd (ll_gradient LogBernoulli l m h x (Some tg) Weight) = Ok (Some g) /\ wf g /\ shape g = [n_params m] /\
    forall w t0 dw, w t0 = w0 -> moves w t0 dw ->
    exists F, (forall t, exists m', set_weight m (w t) = (m', Ok tt) /\ forall h', snd (ll_forward LogBernoulli l m' h' x (Some tg)) = Ok (Some (mkT [] [F t]))) /\
      derivable_pt_lim F t0 (bsum (n_params m) (fun p => nth p (data g) 0 * nth p (data dw) 0))%R.
Proof.
  intros a sh bp l m s s' b x tg w0 h I0 Ra Ty Hb Wx Sx Sm Gw Wt St Ns Pr. fields I0.
  apply (weight_gradient LogBernoulli l m s s' b x tg); auto.
Qed.
Lemma gradient_input_bernoulli : forall a sh bp l (m : module R) (s s' : list nat) (b : nat) (x tg : tensor R) h,
  ll_init a sh bp = Ok l -> reduces a -> typed m s s' -> 0 < b -> wf x -> shape x = b :: s -> smooth m x ->
  wf tg -> shape tg = b :: s' -> s' <> [] ->
  (forall q, q < b -> proper LogBernoulli (last s' 0) (numel s') (sample (numel s') tg q)) ->
  exists g gs, snd (ll_gradient LogBernoulli l m h x (Some tg) Input) = Ok (Some g) /\ wf g /\ shape g = [numel s] /\
    (forall j, j < numel s -> nth j (data g) 0%R = agg_value_of a b (fun q => gs q j)) /\
    forall z t0 d, z t0 = x -> moves z t0 d ->
    exists F, (forall t h', snd (ll_forward LogBernoulli l m h' (z t) (Some tg)) = Ok (Some (mkT [] [F t]))) /\
      derivable_pt_lim F t0 (agg_value_of a b (fun q => bsum (numel s) (fun j => gs q j * sample (numel s) d q j)%R)).
Proof.
  intros a sh bp l m s s' b x tg h I0 Ra Ty Hb Wx Sx Sm Wt St Ns Pr. fields I0.
  apply (input_gradient LogBernoulli l m s s' b x tg); auto.
Qed.
Lemma forward_density_bernoulli : forall a sh bp l (m : module R) (s s' : list nat) (b : nat) (x tg : tensor R) h,
  ll_init a sh bp = Ok l -> reduces a -> typed m s s' -> 0 < b -> wf x -> shape x = b :: s -> wf tg -> shape tg = b :: s' -> s' <> [] ->
  exists y, fwd m x = Ok y /\ snd (ll_forward LogBernoulli l m h x (Some tg)) = Ok (Some (mkT []
    [agg_value_of a b (fun q => log_density LogBernoulli (last s' 0) (numel s') (sample (numel s') tg q) (sample (numel s') y q))])).
Proof.
  intros a sh bp l m s s' b x tg h I0 Ra Ty Hb Wx Sx Wt St Ns. fields I0. destruct (fwd_total m s s' b x Ty Hb Wx Sx) as (y & Fy & Wy & Sy). exists y. split; auto.
  apply (forward_value LogBernoulli l m s s' b tg); auto. now rewrite Sx.
Qed.

Lemma main_ggn_input : forall k a sh l (m : module R) (s s' : list nat) (b : nat) (x : tensor R) h,
  ll_init a sh MExact = Ok l -> reduces a -> typed m s s' -> all_sym m -> nonempty m -> 0 < b -> wf x -> shape x = b :: s ->
  (k = LogBernoulli -> s' <> [] /\ numel s' = last s' 0) ->
  exists y J Hm G, fwd m x = Ok y /\ snd (jacobian m st0 x None Input) = Ok (Some J) /\ shape J = [b; numel s'; numel s] /\
    (forall t q, q < b -> proper k (last s' 0) (numel s') t ->
       is_hessian (numel s') (log_density k (last s' 0) (numel s') t) (sample (numel s') y q) (Hm q)) /\
    snd (ll_ggn k l m h x Input) = Ok (VT G) /\ aggregates a (only_diag sh) b (numel s) (pull_at (numel s') (entry J) Hm) G.
Proof. intros k a sh l m s s' b x h I0 Ra Ty Sy Ne Hb Wx Sx Hk. fields I0. now apply (ggn_input k l m s s' b x). Qed.
Lemma main_ggn_weight : forall k a sh l (m : module R) (s s' : list nat) (b : nat) (x : tensor R) h,
  ll_init a sh MExact = Ok l -> reduces a -> typed m s s' -> all_sym m -> nonempty m -> 0 < b -> wf x -> shape x = b :: s ->
  (k = LogBernoulli -> s' <> [] /\ numel s' = last s' 0) -> n_params m <> 0 -> (sh = MDiag \/ exists lf, m = Leaf lf) ->
  exists y J Hm G, fwd m x = Ok y /\ snd (jacobian m st0 x None Weight) = Ok (Some J) /\ shape J = [b; numel s'; n_params m] /\
    (forall t q, q < b -> proper k (last s' 0) (numel s') t ->
       is_hessian (numel s') (log_density k (last s' 0) (numel s') t) (sample (numel s') y q) (Hm q)) /\
    snd (ll_ggn k l m h x Weight) = Ok (VT G) /\ aggregates a (only_diag sh) b (n_params m) (pull_at (numel s') (entry J) Hm) G.
Proof. intros k a sh l m s s' b x h I0 Ra Ty Sy Ne Hb Wx Sx Hk Hn Hs. fields I0. now apply (ggn_weight k l m s s' b x). Qed.
Lemma main_ggn_approx : forall k a l (m : module R) (s s' : list nat) (b : nat) (x : tensor R) h w,
  ll_init a MDiag MApprox = Ok l -> reduces a -> typed m s s' -> all_sym m -> 0 < b -> wf x -> shape x = b :: s ->
  k <> LogBernoulli -> w <> Other -> (w = Weight -> n_params m <> 0) ->
  exists y Hm G, fwd m x = Ok y /\
    (forall t q, q < b -> proper k (last s' 0) (numel s') t ->
       is_hessian (numel s') (log_density k (last s' 0) (numel s') t) (sample (numel s') y q) (Hm q)) /\
    snd (ll_ggn k l m h x w) = Ok (VT G) /\
    aggregates a true b (match w with Input => numel s | _ => n_params m end)
      (fun q i _ => match w with Input => dpull m x (fun q i => Hm q i i) q i | _ => dpullw m x (fun q i => Hm q i i) q i end) G.
Proof. intros k a l m s s' b x h w I0 Ra Ty Sy Hb Wx Sx Hk Hw Hn. fields I0. now apply (ggn_approx k l m s s' b x). Qed.
Lemma main_full_raises : forall k a l (ms : list (module R)) (s s' : list nat) (b : nat) (x : tensor R) h hooks,
  ll_init a MFull MExact = Ok l -> reduces a -> typed (Seq hooks ms) s s' -> all_sym (Seq hooks ms) -> nonempty (Seq hooks ms) ->
  0 < b -> wf x -> shape x = b :: s -> (k = LogBernoulli -> s' <> [] /\ numel s' = last s' 0) -> n_params (Seq hooks ms) <> 0 ->
  snd (ll_ggn k l (Seq hooks ms) h x Weight) = Raise TypeError.
Proof. intros k a l ms s s' b x h hooks I0 Ra Ty Sy Ne Hb Wx Sx Hk Hn. fields I0. now apply (ggn_full_raises k l (Seq hooks ms) s s' b x) with (hooks := hooks) (ms := ms). Qed.
Lemma main_approx_raises : forall k a sh l (ms : list (module R)) (s s' : list nat) (b : nat) (x : tensor R) h hooks w,
  ll_init a sh MApprox = Ok l -> typed (Seq hooks ms) s s' -> 0 < b -> wf x -> shape x = b :: s ->
  (k = LogBernoulli -> s' <> [] /\ numel s' = last s' 0) -> w <> Other -> (k = LogBernoulli \/ sh = MFull) ->
  snd (ll_ggn k l (Seq hooks ms) h x w) = Raise AssertionError.
Proof. intros k a sh l ms s s' b x h hooks w I0 Ty Hb Wx Sx Hk Hw Hs. fields I0. now apply (ggn_approx_raises k l (Seq hooks ms) s s' b x) with (hooks := hooks) (ms := ms). Qed.
Lemma main_values : forall k a sh bp (m : module R) (s s' : list nat) (b : nat) (x tg : tensor R) h,
  reduces a -> sh <> MShapeOther -> bp <> MBackpropOther ->
  typed m s s' -> 0 < b -> wf x -> shape x = b :: s -> wf tg -> shape tg = b :: s' -> (k = LogBernoulli -> s' <> []) ->
  exists l y, ll_init a sh bp = Ok l /\ fwd m x = Ok y /\
    snd (ll_forward k l m h x (Some tg)) = Ok (Some (mkT [] [
      let f q := log_density k (last s' 0) (numel s') (sample (numel s') tg q) (sample (numel s') y q) in
      match a with AggAverage => (bsum b f / INR b)%R | _ => bsum b f end])).
Proof.
  intros k a sh bp m s s' b x tg h Ra Hs Hp Ty Hb Wx Sx Wt St Hk. destruct (fwd_total m s s' b x Ty Hb Wx Sx) as (y & Fy & Wy & Sy).
  exists {| ll_agg := a; ll_shape := sh; ll_backprop := bp |}, y. split; [|split]; auto.
  - unfold ll_init, check. destruct Ra as [-> | ->], sh, bp; congruence.
  - rewrite (forward_value k _ m s s' b tg) with (y := y); auto. now rewrite Sx.
Qed.
Lemma default_raises sh bp : ll_init AggAll sh bp = Raise AssertionError.
Proof. reflexivity. Qed.
Lemma main_none : forall k sh bp l (m : module R) (s s' : list nat) (b : nat) (x tg : tensor R) h,
  ll_init AggNone sh bp = Ok l -> typed m s s' -> 0 < b -> wf x -> shape x = b :: s -> wf tg -> shape tg = b :: s' -> (k = LogBernoulli -> s' <> []) ->
  snd (ll_forward k l m h x (Some tg)) = Ok None /\ snd (ll_gradient k l m h x (Some tg) Input) = Ok None.
Proof.
  intros k sh bp l m s s' b x tg h I0 Ty Hb Wx Sx Wt St Hk. destruct (init_fields _ _ _ _ I0) as (Ea & _ & _). destruct (fwd_total m s s' b x Ty Hb Wx Sx) as (y & Fy & Wy & Sy). split.
  - rewrite (forward_flat k l m h x y tg b s') by (auto; now rewrite Sx). unfold agg_scalar. now rewrite Ea.
  - destruct (gradient_flat k l m h x tg b s s' Input Ty Hb Wx Sx Wt St Hk ltac:(discriminate)) as (y' & r & _ & _ & _ & Wr & Sr & _ & Eg).
    destruct (vjp_input m s s' b x Ty Hb Wx Sx st0 st0 r Wr Sr) as (J' & _ & _ & _ & EV). rewrite EV in Eg. rewrite Eg. cbn [bind]. unfold agg_rows. now rewrite Ea.
Qed.
Lemma main_target : forall k l (m : module R) (s s' : list nat) (b : nat) (x tg : tensor R) h w,
  typed m s s' -> 0 < b -> wf x -> shape x = b :: s -> shape tg <> b :: s' ->
  snd (ll_forward k l m h x (Some tg)) = Raise AssertionError /\ snd (ll_gradient k l m h x (Some tg) w) = Raise AssertionError /\
  snd (ll_forward k l m h x None) = Raise AttributeError /\ snd (ll_gradient k l m h x None w) = Raise AttributeError.
Proof.
  intros k l m s s' b x tg h w Ty Hb Wx Sx Nt. destruct (fwd_total m s s' b x Ty Hb Wx Sx) as (y & Fy & Wy & Sy).
  unfold ll_forward, ll_gradient, size. rewrite Sx. cbn [nth_error]. pose proof (forward_pure m h x) as Ep. destruct (forward m h x) as [h' r]. cbn [snd] in *. rewrite Ep, Fy. cbn [bind].
  unfold same_shape. rewrite Sy. destruct (shape_eqb (b :: s') (shape tg)) eqn:Eq; [|cbn; auto]. apply shape_eqb_true in Eq. congruence.
Qed.
