(** C15 (matrix=None), C22 (modules without parameters), C25 (diagonal fast paths), C35 (wrt).
    [h], [h'] are arbitrary hidden states (whatever calls were made before). *)
From Coq Require Import List Arith ZArith Bool Lia Reals.
From Verif Require Import Scalar Sums Tensor Conv Abstract Simple LinearLayer ConvLayer PoolLayer Module Spec Domain SpecQ Calls Trees NoneArg NonParam DiagPath Examples Witness.
Import ListNotations.
Local Open Scope nat_scope.
Local Open Scope list_scope.

(** C15, full claim: mjp and jmp of None return the jacobian and jTmjp and jmjTp of None the value at the identity metric,
    for every module.  It fails for the modules and arguments excluded by [takes_none], [pulls_none] and [pushes_none]: see the
    refutations below. *)
Theorem C15_mjp_partial : forall (K : Type) (N : Num K) (CR : CRing K) (m : module K) s s' b (x : tensor K) h h' w,
  typed m s s' -> 0 < b -> wf x -> shape x = b :: s -> takes_none m = true -> w <> Other -> w = Input \/ is_skip m = false \/ n_params m <> 0 ->
  snd (mjp m h x None None w) = snd (jacobian m h x None w) /\
  snd (mjp m h x None None w) = snd (mjp m h' x None (Some (identity_metric false b (numel s'))) w).
Proof.
  exact (fun K N CR m s s' b x h h' w T B W S E Hw Q => conj (mjp_none m h x w E) (eq_trans (mjp_none m h x w E) (eq_sym (mjp_eye m s s' b x T B W S h' h w Hw Q)))).
Qed.
Print Assumptions C15_mjp_partial.
Example C15_mjp_case : exists J, takes_none netB = true /\ snd (mjp netB st0 xB None None Weight) = Ok (Some J) /\ shape J = [1; 1; 53].
Proof. eexists. split; [|split]; vm_compute; reflexivity. Qed.
Theorem C15_jmp_partial : forall (K : Type) (N : Num K) (CR : CRing K) (m : module K) s s' b (x : tensor K) h h' w,
  typed m s s' -> 0 < b -> wf x -> shape x = b :: s -> takes_none m = true -> fwdable m -> w <> Other -> w = Input \/ skips_param m /\ n_params m <> 0 ->
  snd (jmp m h x None None w) = snd (jacobian m h x None w) /\
  snd (jmp m h x None None w) = snd (jmp m h' x None (Some (identity_metric false b (match w with Input => numel s | _ => n_params m end))) w).
Proof.
  exact (fun K N CR m s s' b x h h' w T B W S E F Hw Q => conj (jmp_none m h x w E Hw) (eq_trans (jmp_none m h x w E Hw) (eq_sym (jmp_eye m s s' b x T B W S h' h w F Hw Q)))).
Qed.
Print Assumptions C15_jmp_partial.
Example C15_jmp_case : exists J, takes_none netA = true /\ snd (jmp netA st0 xA None None Weight) = Ok (Some J) /\ shape J = [2; 2; 15].
Proof. eexists. split; [|split]; vm_compute; reflexivity. Qed.
(** whatever from_diag says next to None, and whichever way the identity is written down *)
Theorem C15_jTmjp_partial : forall (K : Type) (N : Num K) (CR : CRing K) (m : module K) s s' b (x : tensor K) h h' w from_diag from_diag' to_diag,
  typed m s s' -> 0 < b -> wf x -> shape x = b :: s -> all_sym m -> nonempty m -> w <> Other -> pulls_none m s' to_diag = true ->
  snd (jTmjp m h x None VNone w from_diag to_diag false) =
  snd (jTmjp m h' x None (VT (identity_metric from_diag' b (numel s'))) w from_diag' to_diag false).
Proof. exact (fun K N CR m s s' b x h h' w fd fd' td T B W S Sy Ne Hw E => pull_identity m s s' b x T B W S h h' w fd fd' td E Sy Ne Hw). Qed.
Print Assumptions C15_jTmjp_partial.
Example C15_jTmjp_case : exists t, pulls_none netB [1] true = true /\ snd (jTmjp netB st0 xB None VNone Weight false true false) = Ok (VT t) /\ shape t = [1; 53].
Proof. eexists. split; [|split]; vm_compute; reflexivity. Qed.
Theorem C15_jmjTp_partial : forall (K : Type) (N : Num K) (CR : CRing K) (m : module K) s s' b (x : tensor K) h h' w from_diag from_diag' to_diag,
  typed m s s' -> 0 < b -> wf x -> shape x = b :: s -> fwdable m -> nonempty m -> w = Input \/ w = Weight /\ n_params m <> 0 -> pushes_none m s w = true ->
  snd (jmjTp m h x None VNone w from_diag to_diag false) =
  snd (jmjTp m h' x None (VT (identity_metric from_diag' b (match w with Input => numel s | _ => n_params m end))) w from_diag' to_diag false).
Proof. exact (fun K N CR m s s' b x h h' w fd fd' td T B W S F Ne Hw E => push_identity m s s' b x T B W S h h' w fd fd' td E F Ne Hw). Qed.
Print Assumptions C15_jmjTp_partial.
Example C15_jmjTp_case : exists t, pushes_none netA [2] Input = true /\ snd (jmjTp netA st0 xA None VNone Input false false false) = Ok (VT t) /\ shape t = [2; 2; 2].
Proof. eexists. split; [|split]; vm_compute; reflexivity. Qed.
(** Flatten and Reshape: mjp and jmp of None raise *)
Theorem C15_refuted_flatten : exists (m : module Z) s s' b (x t : tensor Z),
  typed m s s' /\ 0 < b /\ wf x /\ shape x = b :: s /\
  answer m (init m) (Jacobian x None Input) = Ok (VT t) /\
  answer m (init m) (Mjp x None (Some (identity_metric false b (numel s'))) Input) = Ok (VT t) /\
  answer m (init m) (Mjp x None None Input) = Raise NotImplementedError /\
  answer m (init m) (Jmp x None None Input) = Raise NotImplementedError.
Proof. exact none_flatten. Qed.
Print Assumptions C15_refuted_flatten.
(** L2Norm (and every layer that only has its jacobian): all four raise *)
Theorem C15_refuted_l2norm : exists (m : module Z) s s' b (x t : tensor Z),
  typed m s s' /\ 0 < b /\ wf x /\ shape x = b :: s /\
  answer m (init m) (Jacobian x None Input) = Ok (VT t) /\
  answer m (init m) (Mjp x None None Input) = Raise TypeError /\
  answer m (init m) (Jmp x None None Input) = Raise TypeError /\
  snd (jTmjp m (init m) x None VNone Input true true false) = Raise TypeError /\
  snd (jmjTp m (init m) x None VNone Input true true false) = Raise TypeError.
Proof. exact none_l2norm. Qed.
Print Assumptions C15_refuted_l2norm.
(** SkipConnection.jmjTp of None raises; SkipConnection.jTmjp of None raises on images *)
Theorem C15_refuted_skip_jmjTp : exists (m : module Z) s s' b (x t : tensor Z),
  typed m s s' /\ 0 < b /\ wf x /\ shape x = b :: s /\
  snd (jmjTp m (init m) x None (VT (identity_metric true b (numel s))) Input true true false) = Ok (VT t) /\
  snd (jmjTp m (init m) x None VNone Input true true false) = Raise TypeError.
Proof. exact none_skip_push. Qed.
Print Assumptions C15_refuted_skip_jmjTp.
Theorem C15_refuted_skip_jTmjp : exists (m : module Z) s s' b (x t : tensor Z),
  typed m s s' /\ 0 < b /\ wf x /\ shape x = b :: s /\
  snd (jTmjp m (init m) x None (VT (identity_metric true b (numel s'))) Input true true false) = Ok (VT t) /\
  snd (jTmjp m (init m) x None VNone Input true true false) = Raise RuntimeError.
Proof. exact none_skip_pull. Qed.
Print Assumptions C15_refuted_skip_jTmjp.
(** Sequential.jmjTp of None raises on images *)
Theorem C15_refuted_seq_jmjTp : exists (m : module Z) s s' b (x t : tensor Z),
  typed m s s' /\ 0 < b /\ wf x /\ shape x = b :: s /\
  snd (jmjTp m (init m) x None (VT (identity_metric true b (numel s))) Input true true false) = Ok (VT t) /\
  snd (jmjTp m (init m) x None VNone Input true true false) = Raise RuntimeError.
Proof. exact none_seq_push. Qed.
Print Assumptions C15_refuted_seq_jmjTp.
(** Conv2d.jTmjp of None raises unless the diagonal is asked for *)
Theorem C15_refuted_conv_jTmjp : exists (m : module Z) s s' b (x t : tensor Z),
  typed m s s' /\ 0 < b /\ wf x /\ shape x = b :: s /\
  snd (jTmjp m (init m) x None (VT (identity_metric true b (numel s'))) Input true false false) = Ok (VT t) /\
  snd (jTmjp m (init m) x None VNone Input true false false) = Raise AssertionError.
Proof. exact none_conv_pull. Qed.
Print Assumptions C15_refuted_conv_jTmjp.

(** C22, full claim: no product with respect to the weight of a module without parameters raises, all return None.
    The reverse products always do; the forward ones and jacobian do without SkipConnections (refutation below). *)
Theorem C22_reverse : forall (K : Type) (N : Num K) (CR : CRing K) (m : module K) s s' b (x v M : tensor K) h r,
  typed m s s' -> 0 < b -> wf x -> shape x = b :: s -> n_params m = 0 -> wf v -> shape v = [b; numel s'] -> 0 < r -> wf M -> shape M = [b; r; numel s'] ->
  snd (vjp m h x None v Weight) = Ok None /\ snd (mjp m h x None (Some M) Weight) = Ok None.
Proof.
  exact (fun K N CR m s s' b x v M h r T B W S E Wv Sv R WM SM =>
    conj (proj2 (vjp_weight m s s' b x T B W S h h v Wv Sv) E) (proj2 (mjp_weight m s s' b x T B W S h h r M R WM SM) E)).
Qed.
Print Assumptions C22_reverse.
Theorem C22_jTmjp : forall (K : Type) (N : Num K) (CR : CRing K) (m : module K) s s' b (x M : tensor K) h from_diag to_diag,
  typed m s s' -> 0 < b -> wf x -> shape x = b :: s -> n_params m = 0 -> all_sym m -> nonempty m -> wf M -> shape M = metric_shape from_diag b (numel s') ->
  snd (jTmjp m h x None (VT M) Weight from_diag to_diag false) = Ok VNone.
Proof. exact (fun K N CR m s s' b x M h fd td T B W S E Sy Ne WM SM => proj2 (jTmjp_weight m s s' b x T B W S h h fd td M Sy Ne WM SM) E). Qed.
Print Assumptions C22_jTmjp.
(** no condition on the values or sizes of the propagated tensor *)
Theorem C22_forward_partial : forall (K : Type) (N : Num K) (CR : CRing K) (m : module K) s s' b (x v M : tensor K) h val,
  typed m s s' -> 0 < b -> wf x -> shape x = b :: s -> n_params m = 0 -> skips_param m -> val_ok m x val -> 2 <= rank v -> 3 = rank M ->
  snd (jvp m h x val v Weight) = Ok None /\ snd (jmp m h x val (Some M) Weight) = Ok None.
Proof.
  exact (fun K N CR m s s' b x v M h val T B W S E Sk V Rv RM =>
    conj (proj1 jvp_np0 m s s' T Sk E b h x val v B W S V Rv) (proj1 jmp_np0 m s s' T Sk E b h x val M B W S V RM)).
Qed.
Print Assumptions C22_forward_partial.
Theorem C22_jacobian_partial : forall (K : Type) (N : Num K) (CR : CRing K) (m : module K) s s' b (x : tensor K) h,
  typed m s s' -> 0 < b -> wf x -> shape x = b :: s -> n_params m = 0 -> (forall F, m <> Skip F) -> snd (jacobian m h x None Weight) = Ok None.
Proof. exact (fun K N CR m s s' b x h T B W S E NS => jac_weight0 m s s' b x T B W S h E NS). Qed.
Print Assumptions C22_jacobian_partial.
Theorem C22_jmjTp_partial : forall (K : Type) (N : Num K) (CR : CRing K) (m : module K) s s' b (x M : tensor K) h val from_diag to_diag diag_backprop,
  typed m s s' -> 0 < b -> wf x -> shape x = b :: s -> n_params m = 0 -> (forall F, m <> Skip F) -> val_ok m x val ->
  diag_backprop = false \/ from_diag = true /\ to_diag = true ->
  snd (jmjTp m h x val (VT M) Weight from_diag to_diag diag_backprop) = Ok VNone.
Proof.
  exact (fun K N CR m s s' b x M h val fd td db T B W S E NS V Db => jmjTp_np0 m s s' T NS E b h x val M fd td db B W S V (db_ok_of fd td db Db)).
Qed.
Print Assumptions C22_jmjTp_partial.
Example C22_case : typed netP [2] [2] /\ n_params netP = 0 /\ skips_param netP /\ all_sym netP /\ nonempty netP.
Proof. split; [exact netP_typed|]. split; [reflexivity|]. cbn. repeat split; discriminate. Qed.
Theorem C22_refuted : exists (m : module Z) s s' b (x v M M' : tensor Z),
  typed m s s' /\ n_params m = 0 /\ 0 < b /\ wf x /\ shape x = b :: s /\
  shape v = [b; 0] /\ shape M = [b; 0; 1] /\ shape M' = [b; 0; 0] /\ wf v /\ wf M /\ wf M' /\
  answer m (init m) (Jacobian x None Weight) = Raise TypeError /\
  answer m (init m) (Jvp x None v Weight) = Raise TypeError /\
  answer m (init m) (Jmp x None (Some M) Weight) = Raise TypeError /\
  snd (jmjTp m (init m) x None (VT M') Weight false false false) = Raise TypeError.
Proof. exact skip_weight_raises. Qed.
Print Assumptions C22_refuted.

(** C25.  [jac] is the jacobian method of any layer deriving from AbstractDiagonalJacobian, the products are the ones it inherits. *)
Theorem C25_jvp : forall (K : Type) (N : Num K) (CR : CRing K) jac (x : tensor K) val w b n D J v,
  jac x val w true = Ok (Some D) -> jac x val w false = Ok (Some J) -> diagonal_of b n D J -> shape v = [b; n] ->
  ad_jvp jac x val v w = Ok (Some (Jv b n n (entry J) v)) /\ ad_vjp jac x val v w = Ok (Some (vJ b n n (entry J) v)).
Proof. exact (fun K N CR jac x val w b n D J v HD _ DJ S => conj (dp_jvp jac x val w b n D J HD DJ v S) (dp_vjp jac x val w b n D J HD DJ v S)). Qed.
Print Assumptions C25_jvp.
Theorem C25_jmp : forall (K : Type) (N : Num K) (CR : CRing K) jac (x : tensor K) val w b n c D J M,
  jac x val w true = Ok (Some D) -> jac x val w false = Ok (Some J) -> diagonal_of b n D J -> shape M = [b; n; c] ->
  ad_jmp jac x val (Some M) w = Ok (Some (JM b n n c (entry J) M)).
Proof. exact (fun K N CR jac x val w b n c D J M HD _ DJ S => dp_jmp jac x val w b n D J HD DJ c M S). Qed.
Print Assumptions C25_jmp.
Theorem C25_mjp : forall (K : Type) (N : Num K) (CR : CRing K) jac (x : tensor K) val w b n r D J M,
  jac x val w true = Ok (Some D) -> jac x val w false = Ok (Some J) -> diagonal_of b n D J -> shape M = [b; r; n] ->
  ad_mjp jac x val (Some M) w = Ok (Some (MJ b r n n (entry J) M)).
Proof. exact (fun K N CR jac x val w b n r D J M HD _ DJ S => dp_mjp jac x val w b n D J HD DJ r M S). Qed.
Print Assumptions C25_mjp.
Theorem C25_jTmjp : forall (K : Type) (N : Num K) (CR : CRing K) jac fwd (x y : tensor K) val w b s D J M from_diag to_diag diag_backprop,
  jac x (Some y) w true = Ok (Some D) -> jac x (Some y) w false = Ok (Some J) -> diagonal_of b (numel s) D J -> 0 < b -> shape x = b :: s ->
  val = None /\ fwd x = Ok y \/ val = Some y -> shape M = metric_shape from_diag b (numel s) ->
  ad_jTmjp jac fwd x val (Some M) w from_diag to_diag diag_backprop = Ok (Some (pull b (numel s) (numel s) (entry J) from_diag to_diag M)) /\
  ad_jmjTp jac fwd x val (Some M) w from_diag to_diag diag_backprop = Ok (Some (push b (numel s) (numel s) (entry J) from_diag to_diag M)).
Proof.
  exact (fun K N CR jac fwd x y val w b s D J M fd td db HD _ DJ B S V SM =>
    conj (ad_pull jac fwd x y val w b s D J HD DJ B S V fd td db M SM) (ad_push jac fwd x y val w b s D J HD DJ B S V fd td db M SM)).
Qed.
Print Assumptions C25_jTmjp.
Theorem C25_none : forall (K : Type) (N : Num K) (CR : CRing K) jac fwd (x y : tensor K) val w b s D J from_diag to_diag diag_backprop,
  jac x (Some y) w true = Ok (Some D) -> jac x (Some y) w false = Ok (Some J) -> diagonal_of b (numel s) D J -> 0 < b -> shape x = b :: s -> shape y = b :: s ->
  val = None /\ fwd x = Ok y \/ val = Some y ->
  ad_jTmjp jac fwd x val None w from_diag to_diag diag_backprop = Ok (Some (pull b (numel s) (numel s) (entry J) true to_diag (identity_metric true b (numel s)))) /\
  ad_jmjTp jac fwd x val None w from_diag to_diag diag_backprop = Ok (Some (push b (numel s) (numel s) (entry J) true to_diag (identity_metric true b (numel s)))).
Proof.
  exact (fun K N CR jac fwd x y val w b s D J fd td db HD _ DJ B S Sy V =>
    conj (ad_pull_none jac fwd x y val w b s D J HD DJ B S V fd td db Sy) (ad_push_none jac fwd x y val w b s D J HD DJ B S V fd td db)).
Qed.
Print Assumptions C25_none.
(** the hypothesis holds for the jacobian of every activation, at every input and every val of the input's shape *)
Theorem C25_activations : forall (K : Type) (N : Num K) (CR : CRing K) (a : act K) b s (x y : tensor K),
  0 < b -> wf x -> shape x = b :: s -> wf y -> shape y = b :: s ->
  exists D J, act_jacobian a x (Some y) Input true = Ok (Some D) /\ act_jacobian a x (Some y) Input false = Ok (Some J) /\ diagonal_of b (numel s) D J.
Proof. exact (fun K N CR a b s x y B W S Wy Sy => act_diagonal a b s x y B W S Wy Sy). Qed.
Print Assumptions C25_activations.
Example C25_case : exists D J, act_jacobian ReLU xA (Some xA) Input true = Ok (Some D) /\ act_jacobian ReLU xA (Some xA) Input false = Ok (Some J) /\
  shape J = [2; 2; 2] /\ data D = [1; 1; 1; 0]%Z.
Proof. do 2 eexists. repeat split; vm_compute; reflexivity. Qed.

(** C35, full claim: a wrt other than input and weight is rejected by every product of a Sequential.  jTmjp and jmjTp accept it (refutation). *)
Theorem C35_partial : forall (K : Type) (N : Num K) hooks (ms : list (module K)) h (x v : tensor K) val mat,
  snd (vjp (Seq hooks ms) h x val v Other) = Raise AssertionError /\ snd (mjp (Seq hooks ms) h x val mat Other) = Raise AssertionError /\
  snd (jvp (Seq hooks ms) h x val v Other) = Raise AssertionError /\ snd (jmp (Seq hooks ms) h x val mat Other) = Raise AssertionError /\
  snd (jacobian (Seq hooks ms) h x val Other) = Raise AssertionError.
Proof. exact (fun K N hooks ms h x v val mat => conj eq_refl (conj eq_refl (conj eq_refl (conj eq_refl eq_refl)))). Qed.
Print Assumptions C35_partial.
Theorem C35_refuted : exists (m : module Z) (x M M' : tensor Z), typed m [2] [2] /\ wf x /\ shape x = [2; 2] /\
  snd (jTmjp m (init m) x None (VT M) Other true true false) = Ok VNone /\
  snd (jmjTp m (init m) x None (VT M') Other true true false) = Ok VNone.
Proof. exact other_wrt_accepted. Qed.
Print Assumptions C35_refuted.
