(** C36-C40: the likelihoods.  [h], [h'] are arbitrary hidden states (whatever calls were made before).
    [l] is an object the constructor returned. *)
From Coq Require Import List Arith Bool Lia Reals.
From Verif Require Import Scalar Sums Tensor Abstract Simple Module LogLik Spec Domain Smooth DiagSpec LikSpec LikFlat LikGrad LikHess LikMain LikError LikWitness LikExact Examples ExamplesR.
Import ListNotations.
Local Open Scope nat_scope.
Local Open Scope list_scope.

(** what "gradient is the gradient of forward" means for the weights *)
Theorem C36_weight :
  forall a sh bp l (m : module R) (s s' : list nat) (b : nat) (x tg w0 : tensor R) h,
  ll_init a sh bp = Ok l -> reduces a -> typed m s s' -> 0 < b -> wf x -> shape x = b :: s -> smooth m x -> get_weight m = Ok w0 ->
  wf tg -> shape tg = b :: s' ->
  exists g, snd (ll_gradient LogGaussian l m h x (Some tg) Weight) = Ok (Some g) /\ wf g /\ shape g = [n_params m] /\
    forall w t0 dw, w t0 = w0 -> moves w t0 dw ->
    exists F, (forall t, exists m', set_weight m (w t) = (m', Ok tt) /\ forall h', snd (ll_forward LogGaussian l m' h' x (Some tg)) = Ok (Some (mkT [] [F t]))) /\
      derivable_pt_lim F t0 (bsum (n_params m) (fun p => nth p (data g) 0 * nth p (data dw) 0))%R.
Proof. exact (gradient_weight_plain LogGaussian ltac:(discriminate)). Qed.
Print Assumptions C36_weight.
(** and for the inputs: the gradients of the samples, aggregated *)
Theorem C36_input :
  forall a sh bp l (m : module R) (s s' : list nat) (b : nat) (x tg : tensor R) h,
  ll_init a sh bp = Ok l -> reduces a -> typed m s s' -> 0 < b -> wf x -> shape x = b :: s -> smooth m x ->
  wf tg -> shape tg = b :: s' ->
  exists g gs, snd (ll_gradient LogGaussian l m h x (Some tg) Input) = Ok (Some g) /\ wf g /\ shape g = [numel s] /\
    (forall j, j < numel s -> nth j (data g) 0%R = agg_value_of a b (fun q => gs q j)) /\
    forall z t0 d, z t0 = x -> moves z t0 d ->
    exists F, (forall t h', snd (ll_forward LogGaussian l m h' (z t) (Some tg)) = Ok (Some (mkT [] [F t]))) /\
      derivable_pt_lim F t0 (agg_value_of a b (fun q => bsum (numel s) (fun j => gs q j * sample (numel s) d q j)%R)).
Proof. exact (gradient_input_plain LogGaussian ltac:(discriminate)). Qed.
Print Assumptions C36_input.
(** forward is the aggregated log density *)
Theorem C36_forward :
  forall a sh bp l (m : module R) (s s' : list nat) (b : nat) (x tg : tensor R) h,
  ll_init a sh bp = Ok l -> reduces a -> typed m s s' -> 0 < b -> wf x -> shape x = b :: s -> wf tg -> shape tg = b :: s' ->
  exists y, fwd m x = Ok y /\ snd (ll_forward LogGaussian l m h x (Some tg)) = Ok (Some (mkT []
    [agg_value_of a b (fun q => log_density LogGaussian (last s' 0) (numel s') (sample (numel s') tg q) (sample (numel s') y q))])).
Proof. exact (forward_density LogGaussian ltac:(discriminate)). Qed.
Print Assumptions C36_forward.
Example C36_case : (exists l, ll_init AggSum MDiag MExact = Ok l) /\ reduces AggSum /\ typed netR [2] [2] /\ wf xR /\ shape xR = 2 :: [2] /\ smooth netR xR /\
  get_weight netR = Ok (tr [9] [2; 1; 3; 1; 0; 2; (-1); 1; 1]%R) /\ wf tR /\ shape tR = 2 :: [2].
Proof.
  split; [eexists; reflexivity|]. split; [now left|]. split; [exact netR_typed|]. split; [reflexivity|]. split; [reflexivity|]. split; [exact netR_smooth|].
  split; [reflexivity|]. split; reflexivity.
Qed.

Theorem C37_weight :
  forall a sh bp l (m : module R) (s s' : list nat) (b : nat) (x tg w0 : tensor R) h,
  ll_init a sh bp = Ok l -> reduces a -> typed m s s' -> 0 < b -> wf x -> shape x = b :: s -> smooth m x -> get_weight m = Ok w0 ->
  wf tg -> shape tg = b :: s' ->
  exists g, snd (ll_gradient LogBinaryBernoulli l m h x (Some tg) Weight) = Ok (Some g) /\ wf g /\ shape g = [n_params m] /\
    forall w t0 dw, w t0 = w0 -> moves w t0 dw ->
    exists F, (forall t, exists m', set_weight m (w t) = (m', Ok tt) /\ forall h', snd (ll_forward LogBinaryBernoulli l m' h' x (Some tg)) = Ok (Some (mkT [] [F t]))) /\
      derivable_pt_lim F t0 (bsum (n_params m) (fun p => nth p (data g) 0 * nth p (data dw) 0))%R.
Proof. exact (gradient_weight_plain LogBinaryBernoulli ltac:(discriminate)). Qed.
Print Assumptions C37_weight.
Theorem C37_input :
  forall a sh bp l (m : module R) (s s' : list nat) (b : nat) (x tg : tensor R) h,
  ll_init a sh bp = Ok l -> reduces a -> typed m s s' -> 0 < b -> wf x -> shape x = b :: s -> smooth m x ->
  wf tg -> shape tg = b :: s' ->
  exists g gs, snd (ll_gradient LogBinaryBernoulli l m h x (Some tg) Input) = Ok (Some g) /\ wf g /\ shape g = [numel s] /\
    (forall j, j < numel s -> nth j (data g) 0%R = agg_value_of a b (fun q => gs q j)) /\
    forall z t0 d, z t0 = x -> moves z t0 d ->
    exists F, (forall t h', snd (ll_forward LogBinaryBernoulli l m h' (z t) (Some tg)) = Ok (Some (mkT [] [F t]))) /\
      derivable_pt_lim F t0 (agg_value_of a b (fun q => bsum (numel s) (fun j => gs q j * sample (numel s) d q j)%R)).
Proof. exact (gradient_input_plain LogBinaryBernoulli ltac:(discriminate)). Qed.
Print Assumptions C37_input.
Theorem C37_forward :
  forall a sh bp l (m : module R) (s s' : list nat) (b : nat) (x tg : tensor R) h,
  ll_init a sh bp = Ok l -> reduces a -> typed m s s' -> 0 < b -> wf x -> shape x = b :: s -> wf tg -> shape tg = b :: s' ->
  exists y, fwd m x = Ok y /\ snd (ll_forward LogBinaryBernoulli l m h x (Some tg)) = Ok (Some (mkT []
    [agg_value_of a b (fun q => log_density LogBinaryBernoulli (last s' 0) (numel s') (sample (numel s') tg q) (sample (numel s') y q))])).
Proof. exact (forward_density LogBinaryBernoulli ltac:(discriminate)). Qed.
Print Assumptions C37_forward.
Example C37_case : exists l, ll_init AggAverage MFull MApprox = Ok l /\ reduces AggAverage /\ typed netR [2] [2] /\ smooth netR xR /\ exists w, get_weight netR = Ok w.
Proof. eexists. split; [reflexivity|]. split; [now right|]. split; [exact netR_typed|]. split; [exact netR_smooth|]. eexists. reflexivity. Qed.
Example C37_case_pool : typed netQ [4] [1] /\ wf xQ /\ shape xQ = 1 :: [4] /\ smooth netQ xQ.
Proof. split; [exact netQ_typed|]. split; [reflexivity|]. split; [reflexivity|]. exact netQ_smooth. Qed.

(** C38, for targets whose groups of classes sum to 1.  The full statement has no such hypothesis and is refuted below. *)
Theorem C38_weight_partial :
  forall a sh bp l (m : module R) (s s' : list nat) (b : nat) (x tg w0 : tensor R) h,
  ll_init a sh bp = Ok l -> reduces a -> typed m s s' -> 0 < b -> wf x -> shape x = b :: s -> smooth m x -> get_weight m = Ok w0 ->
  wf tg -> shape tg = b :: s' -> s' <> [] ->
  (forall q, q < b -> proper LogBernoulli (last s' 0) (numel s') (sample (numel s') tg q)) ->
  exists g, snd (ll_gradient LogBernoulli l m h x (Some tg) Weight) = Ok (Some g) /\ wf g /\ shape g = [n_params m] /\
    forall w t0 dw, w t0 = w0 -> moves w t0 dw ->
    exists F, (forall t, exists m', set_weight m (w t) = (m', Ok tt) /\ forall h', snd (ll_forward LogBernoulli l m' h' x (Some tg)) = Ok (Some (mkT [] [F t]))) /\
      derivable_pt_lim F t0 (bsum (n_params m) (fun p => nth p (data g) 0 * nth p (data dw) 0))%R.
Proof. exact gradient_weight_bernoulli. Qed.
Print Assumptions C38_weight_partial.
Theorem C38_input_partial :
  forall a sh bp l (m : module R) (s s' : list nat) (b : nat) (x tg : tensor R) h,
  ll_init a sh bp = Ok l -> reduces a -> typed m s s' -> 0 < b -> wf x -> shape x = b :: s -> smooth m x ->
  wf tg -> shape tg = b :: s' -> s' <> [] ->
  (forall q, q < b -> proper LogBernoulli (last s' 0) (numel s') (sample (numel s') tg q)) ->
  exists g gs, snd (ll_gradient LogBernoulli l m h x (Some tg) Input) = Ok (Some g) /\ wf g /\ shape g = [numel s] /\
    (forall j, j < numel s -> nth j (data g) 0%R = agg_value_of a b (fun q => gs q j)) /\
    forall z t0 d, z t0 = x -> moves z t0 d ->
    exists F, (forall t h', snd (ll_forward LogBernoulli l m h' (z t) (Some tg)) = Ok (Some (mkT [] [F t]))) /\
      derivable_pt_lim F t0 (agg_value_of a b (fun q => bsum (numel s) (fun j => gs q j * sample (numel s) d q j)%R)).
Proof. exact gradient_input_bernoulli. Qed.
Print Assumptions C38_input_partial.
Theorem C38_forward :
  forall a sh bp l (m : module R) (s s' : list nat) (b : nat) (x tg : tensor R) h,
  ll_init a sh bp = Ok l -> reduces a -> typed m s s' -> 0 < b -> wf x -> shape x = b :: s -> wf tg -> shape tg = b :: s' -> s' <> [] ->
  exists y, fwd m x = Ok y /\ snd (ll_forward LogBernoulli l m h x (Some tg)) = Ok (Some (mkT []
    [agg_value_of a b (fun q => log_density LogBernoulli (last s' 0) (numel s') (sample (numel s') tg q) (sample (numel s') y q))])).
Proof. exact forward_density_bernoulli. Qed.
Print Assumptions C38_forward.
Example C38_case : typed netR [2] [2] /\ smooth netR xR /\ [2] <> [] /\ forall q, q < 2 -> proper LogBernoulli (last [2] 0) (numel [2]) (sample (numel [2]) tR q).
Proof. split; [exact netR_typed|]. split; [exact netR_smooth|]. split; [discriminate|exact tR_proper]. Qed.
(** the target (0, 0): forward is constant, gradient is not zero *)
Theorem C38_refuted_target : exists (m : module R) (s s' : list nat) (b : nat) (x tg w0 g : tensor R) (l : loglik),
  ll_init AggSum MDiag MExact = Ok l /\ typed m s s' /\ 0 < b /\ wf x /\ shape x = b :: s /\ smooth m x /\ get_weight m = Ok w0 /\
  wf tg /\ shape tg = b :: s' /\ s' <> [] /\ snd (ll_gradient LogBernoulli l m st0 x (Some tg) Weight) = Ok (Some g) /\
  exists w t0 dw, w t0 = w0 /\ moves w t0 dw /\
    forall F, (forall t, exists m', set_weight m (w t) = (m', Ok tt) /\ forall h', snd (ll_forward LogBernoulli l m' h' x (Some tg)) = Ok (Some (mkT [] [F t]))) ->
      ~ derivable_pt_lim F t0 (bsum (n_params m) (fun p => nth p (data g) 0 * nth p (data dw) 0))%R.
Proof. exact not_gradient. Qed.
Print Assumptions C38_refuted_target.

(** every target: the derivative of forward is gradient plus a sum over the outputs of [over] times the Jacobian;
    [over] is (1 - the sum of the target's group) times the class probability *)
Theorem C38_weight_error :
  forall a sh bp l (m : module R) (s s' : list nat) (b : nat) (x tg w0 : tensor R) h,
  ll_init a sh bp = Ok l -> reduces a -> typed m s s' -> 0 < b -> wf x -> shape x = b :: s -> smooth m x -> get_weight m = Ok w0 ->
  wf tg -> shape tg = b :: s' -> s' <> [] ->
  exists g J y, fwd m x = Ok y /\ snd (jacobian m st0 x None Weight) = Ok (Some J) /\
    snd (ll_gradient LogBernoulli l m h x (Some tg) Weight) = Ok (Some g) /\ wf g /\ shape g = [n_params m] /\
    let E p := agg_value_of a b (fun q => bsum (numel s') (fun i => over s' tg y q i * entry J q i p))%R in
    forall w t0 dw, w t0 = w0 -> moves w t0 dw ->
    exists F, (forall t, exists m', set_weight m (w t) = (m', Ok tt) /\ forall h', snd (ll_forward LogBernoulli l m' h' x (Some tg)) = Ok (Some (mkT [] [F t]))) /\
      derivable_pt_lim F t0 (bsum (n_params m) (fun p => (nth p (data g) 0 + E p) * nth p (data dw) 0))%R.
Proof. exact error_weight. Qed.
Print Assumptions C38_weight_error.
Theorem C38_input_error :
  forall a sh bp l (m : module R) (s s' : list nat) (b : nat) (x tg : tensor R) h,
  ll_init a sh bp = Ok l -> reduces a -> typed m s s' -> 0 < b -> wf x -> shape x = b :: s -> smooth m x ->
  wf tg -> shape tg = b :: s' -> s' <> [] ->
  exists g gs J y, fwd m x = Ok y /\ snd (jacobian m st0 x None Input) = Ok (Some J) /\
    snd (ll_gradient LogBernoulli l m h x (Some tg) Input) = Ok (Some g) /\ wf g /\ shape g = [numel s] /\
    (forall j, j < numel s -> nth j (data g) 0%R = agg_value_of a b (fun q => gs q j)) /\
    let E q j := bsum (numel s') (fun i => over s' tg y q i * entry J q i j)%R in
    forall z t0 d, z t0 = x -> moves z t0 d ->
    exists F, (forall t h', snd (ll_forward LogBernoulli l m h' (z t) (Some tg)) = Ok (Some (mkT [] [F t]))) /\
      derivable_pt_lim F t0 (agg_value_of a b (fun q => bsum (numel s) (fun j => (gs q j + E q j) * sample (numel s) d q j)%R)).
Proof. exact error_input. Qed.
Print Assumptions C38_input_error.
(** on one sample whose Jacobian rows are linearly independent, gradient is the gradient of forward exactly when every group of the target sums to 1 *)
Theorem C38_exact_target :
  forall a sh bp l (m : module R) (s s' : list nat) (x tg w0 : tensor R) h,
  ll_init a sh bp = Ok l -> reduces a -> typed m s s' -> wf x -> shape x = 1 :: s -> smooth m x -> get_weight m = Ok w0 ->
  wf tg -> shape tg = 1 :: s' -> s' <> [] ->
  exists g J, snd (jacobian m st0 x None Weight) = Ok (Some J) /\
    snd (ll_gradient LogBernoulli l m h x (Some tg) Weight) = Ok (Some g) /\
    ((forall u : nat -> R, (forall p, p < n_params m -> bsum (numel s') (fun i => u i * entry J 0 i p)%R = 0%R) -> forall i, i < numel s' -> u i = 0%R) ->
     (is_weight_gradient l m x tg w0 g <-> proper LogBernoulli (last s' 0) (numel s') (sample (numel s') tg 0))).
Proof. exact exact_target. Qed.
Print Assumptions C38_exact_target.
Example C38_case_rows : typed netL [1] [2] /\ wf xL1 /\ shape xL1 = 1 :: [1] /\ smooth netL xL1 /\ (exists w, get_weight netL = Ok w) /\
  exists J, snd (jacobian netL st0 xL1 None Weight) = Ok (Some J) /\
  forall u : nat -> R, (forall p, p < n_params netL -> bsum (numel [2]) (fun i => u i * entry J 0 i p)%R = 0%R) -> forall i, i < numel [2] -> u i = 0%R.
Proof. split; [exact netL_typed|]. split; [reflexivity|]. split; [reflexivity|]. split; [exact I|]. split; [eexists; reflexivity|exact netL_rows]. Qed.

(** C39.  J^T H J with H the matrix of second derivatives of the log density, aggregated.
    Full statement: for every network, metric_shape and metric_backprop, both wrt.  Missing: the combinations that raise (below). *)
Theorem C39_input_partial :
  forall k a sh l (m : module R) (s s' : list nat) (b : nat) (x : tensor R) h,
  ll_init a sh MExact = Ok l -> reduces a -> typed m s s' -> all_sym m -> nonempty m -> 0 < b -> wf x -> shape x = b :: s ->
  (k = LogBernoulli -> s' <> [] /\ numel s' = last s' 0) ->
  exists y J Hm G, fwd m x = Ok y /\ snd (jacobian m st0 x None Input) = Ok (Some J) /\ shape J = [b; numel s'; numel s] /\
    (forall t q, q < b -> proper k (last s' 0) (numel s') t ->
       is_hessian (numel s') (log_density k (last s' 0) (numel s') t) (sample (numel s') y q) (Hm q)) /\
    snd (ll_ggn k l m h x Input) = Ok (VT G) /\ aggregates a (only_diag sh) b (numel s) (pull_at (numel s') (entry J) Hm) G.
Proof. exact main_ggn_input. Qed.
Print Assumptions C39_input_partial.
Theorem C39_weight_partial :
  forall k a sh l (m : module R) (s s' : list nat) (b : nat) (x : tensor R) h,
  ll_init a sh MExact = Ok l -> reduces a -> typed m s s' -> all_sym m -> nonempty m -> 0 < b -> wf x -> shape x = b :: s ->
  (k = LogBernoulli -> s' <> [] /\ numel s' = last s' 0) -> n_params m <> 0 -> (sh = MDiag \/ exists lf, m = Leaf lf) ->
  exists y J Hm G, fwd m x = Ok y /\ snd (jacobian m st0 x None Weight) = Ok (Some J) /\ shape J = [b; numel s'; n_params m] /\
    (forall t q, q < b -> proper k (last s' 0) (numel s') t ->
       is_hessian (numel s') (log_density k (last s' 0) (numel s') t) (sample (numel s') y q) (Hm q)) /\
    snd (ll_ggn k l m h x Weight) = Ok (VT G) /\ aggregates a (only_diag sh) b (n_params m) (pull_at (numel s') (entry J) Hm) G.
Proof. exact main_ggn_weight. Qed.
Print Assumptions C39_weight_partial.
(** metric_backprop "approx": the layer-by-layer diagonal approximation of C20, started from the diagonal of H *)
Theorem C39_approx_partial :
  forall k a l (m : module R) (s s' : list nat) (b : nat) (x : tensor R) h w,
  ll_init a MDiag MApprox = Ok l -> reduces a -> typed m s s' -> all_sym m -> 0 < b -> wf x -> shape x = b :: s ->
  k <> LogBernoulli -> w <> Other -> (w = Weight -> n_params m <> 0) ->
  exists y Hm G, fwd m x = Ok y /\
    (forall t q, q < b -> proper k (last s' 0) (numel s') t ->
       is_hessian (numel s') (log_density k (last s' 0) (numel s') t) (sample (numel s') y q) (Hm q)) /\
    snd (ll_ggn k l m h x w) = Ok (VT G) /\
    aggregates a true b (match w with Input => numel s | _ => n_params m end)
      (fun q i _ => match w with Input => dpull m x (fun q i => Hm q i i) q i | _ => dpullw m x (fun q i => Hm q i i) q i end) G.
Proof. exact main_ggn_approx. Qed.
Print Assumptions C39_approx_partial.
Example C39_case : typed netR [2] [2] /\ all_sym netR /\ nonempty netR /\ n_params netR = 9 /\ wf xR /\ shape xR = 2 :: [2] /\ [2] <> [] /\ numel [2] = last [2] 0.
Proof. split; [exact netR_typed|]. split; [exact netR_sym|]. split; [exact netR_nonempty|]. repeat split; try reflexivity. discriminate. Qed.
Example C39_case_leaf : typed netL [1] [2] /\ all_sym netL /\ nonempty netL /\ n_params netL = 2 /\ exists lf, netL = Leaf lf.
Proof. split; [exact netL_typed|]. split; [exact I|]. split; [exact I|]. split; [reflexivity|]. eexists. reflexivity. Qed.
(** metric_shape "full" raises on every Sequential *)
Theorem C39_refuted_full :
  forall k a l (ms : list (module R)) (s s' : list nat) (b : nat) (x : tensor R) h hooks,
  ll_init a MFull MExact = Ok l -> reduces a -> typed (Seq hooks ms) s s' -> all_sym (Seq hooks ms) -> nonempty (Seq hooks ms) ->
  0 < b -> wf x -> shape x = b :: s -> (k = LogBernoulli -> s' <> [] /\ numel s' = last s' 0) -> n_params (Seq hooks ms) <> 0 ->
  snd (ll_ggn k l (Seq hooks ms) h x Weight) = Raise TypeError.
Proof. exact main_full_raises. Qed.
Print Assumptions C39_refuted_full.
(** LogBernoulli with more than one group of classes raises *)
Theorem C39_refuted_groups :
  forall l (m : module R) (s s' : list nat) (b : nat) (x : tensor R) h w,
  typed m s s' -> 0 < b -> wf x -> shape x = b :: s -> s' <> [] -> numel s' <> last s' 0 ->
  snd (ll_ggn LogBernoulli l m h x w) = Raise TypeError.
Proof. exact ggn_groups_raises. Qed.
Print Assumptions C39_refuted_groups.
(** metric_backprop "approx" raises on every Sequential for LogBernoulli, and for metric_shape "full" *)
Theorem C39_refuted_approx :
  forall k a sh l (ms : list (module R)) (s s' : list nat) (b : nat) (x : tensor R) h hooks w,
  ll_init a sh MApprox = Ok l -> typed (Seq hooks ms) s s' -> 0 < b -> wf x -> shape x = b :: s ->
  (k = LogBernoulli -> s' <> [] /\ numel s' = last s' 0) -> w <> Other -> (k = LogBernoulli \/ sh = MFull) ->
  snd (ll_ggn k l (Seq hooks ms) h x w) = Raise AssertionError.
Proof. exact main_approx_raises. Qed.
Print Assumptions C39_refuted_approx.
Example C39_refuted_case : (exists ms, netR = Seq true ms) /\ typed netR [2] [2] /\ n_params netR <> 0 /\
  typed netG [2] [2; 2] /\ numel [2; 2] <> last [2; 2] 0.
Proof. split; [eexists; reflexivity|]. split; [exact netR_typed|]. split; [discriminate|]. split; [exact netG_typed|]. discriminate. Qed.

(** C40.  "sum" and "average" work; the documented default "return all" does not *)
Theorem C40_values_partial :
  forall k a sh bp (m : module R) (s s' : list nat) (b : nat) (x tg : tensor R) h,
  reduces a -> sh <> MShapeOther -> bp <> MBackpropOther ->
  typed m s s' -> 0 < b -> wf x -> shape x = b :: s -> wf tg -> shape tg = b :: s' -> (k = LogBernoulli -> s' <> []) ->
  exists l y, ll_init a sh bp = Ok l /\ fwd m x = Ok y /\
    snd (ll_forward k l m h x (Some tg)) = Ok (Some (mkT [] [
      let f q := log_density k (last s' 0) (numel s') (sample (numel s') tg q) (sample (numel s') y q) in
      match a with AggAverage => (bsum b f / INR b)%R | _ => bsum b f end])).
Proof. exact main_values. Qed.
Print Assumptions C40_values_partial.
Theorem C40_refuted_default : forall sh bp, ll_init AggAll sh bp = Raise AssertionError.
Proof. exact default_raises. Qed.
Print Assumptions C40_refuted_default.
(** the undocumented value None is accepted, and every method then returns None *)
Theorem C40_none : forall k sh bp l (m : module R) (s s' : list nat) (b : nat) (x tg : tensor R) h,
  ll_init AggNone sh bp = Ok l -> typed m s s' -> 0 < b -> wf x -> shape x = b :: s -> wf tg -> shape tg = b :: s' -> (k = LogBernoulli -> s' <> []) ->
  snd (ll_forward k l m h x (Some tg)) = Ok None /\ snd (ll_gradient k l m h x (Some tg) Input) = Ok None.
Proof. exact main_none. Qed.
Print Assumptions C40_none.
(** a target of the wrong shape is rejected, and so is a missing target *)
Theorem C40_target_rejected : forall k l (m : module R) (s s' : list nat) (b : nat) (x tg : tensor R) h w,
  typed m s s' -> 0 < b -> wf x -> shape x = b :: s -> shape tg <> b :: s' ->
  snd (ll_forward k l m h x (Some tg)) = Raise AssertionError /\ snd (ll_gradient k l m h x (Some tg) w) = Raise AssertionError /\
  snd (ll_forward k l m h x None) = Raise AttributeError /\ snd (ll_gradient k l m h x None w) = Raise AttributeError.
Proof. exact main_target. Qed.
Print Assumptions C40_target_rejected.
Example C40_case : ll_init AggSum MDiag MExact = Ok lsum /\ (exists l, ll_init AggNone MDiag MExact = Ok l) /\ typed netR [2] [2] /\ shape tR = 2 :: [2] /\
  shape (tr [2; 1] [1; 1]%R) <> 2 :: [2].
Proof. split; [reflexivity|]. split; [eexists; reflexivity|]. split; [exact netR_typed|]. split; [reflexivity|]. discriminate. Qed.
