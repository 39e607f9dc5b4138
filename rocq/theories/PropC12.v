(** C12 (nesting), C13 (adjointness), C14 (linearity), C21 (symmetry and positivity).
    [h], [h'], [h''] are arbitrary hidden states (whatever calls were made before). *)
From Coq Require Import List Arith ZArith Bool Lia Reals Lra.
From Verif Require Import Scalar Sums Tensor Abstract Simple Module Spec Domain SpecQ Nest Algebra Splice Examples ExamplesR.
Import ListNotations.
Local Open Scope nat_scope.
Local Open Scope list_scope.

(** the forward value: no hypothesis at all *)
Theorem C12_forward : forall (K : Type) (N : Num K) (CR : CRing K) (p a r : list (module K)) (x : tensor K),
  fwd (Seq true (p ++ Seq true a :: r)) x = fwd (Seq true (p ++ a ++ r)) x.
Proof. exact (fun K N CR p a r x => splice_fwd p a r x). Qed.
Print Assumptions C12_forward.
Theorem C12_jacobian : forall (K : Type) (N : Num K) (CR : CRing K) (p a r : list (module K)) s s' b (x : tensor K) h h' w,
  typed (Seq true (p ++ Seq true a :: r)) s s' -> 0 < b -> wf x -> shape x = b :: s -> w <> Other ->
  snd (jacobian (Seq true (p ++ Seq true a :: r)) h x None w) = snd (jacobian (Seq true (p ++ a ++ r)) h' x None w).
Proof. exact (fun K N CR p a r s s' b x h h' w T B W S => splice_jacobian p a r s s' b x h h' T B W S w). Qed.
Print Assumptions C12_jacobian.
Theorem C12_vjp : forall (K : Type) (N : Num K) (CR : CRing K) (p a r : list (module K)) s s' b (x v : tensor K) h h' w,
  typed (Seq true (p ++ Seq true a :: r)) s s' -> 0 < b -> wf x -> shape x = b :: s -> w <> Other -> wf v -> shape v = [b; numel s'] ->
  snd (vjp (Seq true (p ++ Seq true a :: r)) h x None v w) = snd (vjp (Seq true (p ++ a ++ r)) h' x None v w).
Proof. exact (fun K N CR p a r s s' b x v h h' w T B W S => splice_vjp p a r s s' b x h h' T B W S v w). Qed.
Print Assumptions C12_vjp.
Theorem C12_mjp : forall (K : Type) (N : Num K) (CR : CRing K) (p a r : list (module K)) s s' b k (x M : tensor K) h h' w,
  typed (Seq true (p ++ Seq true a :: r)) s s' -> 0 < b -> wf x -> shape x = b :: s -> w <> Other -> 0 < k -> wf M -> shape M = [b; k; numel s'] ->
  snd (mjp (Seq true (p ++ Seq true a :: r)) h x None (Some M) w) = snd (mjp (Seq true (p ++ a ++ r)) h' x None (Some M) w).
Proof. exact (fun K N CR p a r s s' b k x M h h' w T B W S => splice_mjp p a r s s' b x h h' T B W S k M w). Qed.
Print Assumptions C12_mjp.
Theorem C12_jvp : forall (K : Type) (N : Num K) (CR : CRing K) (p a r : list (module K)) s s' b (x v : tensor K) h h' w,
  typed (Seq true (p ++ Seq true a :: r)) s s' -> 0 < b -> wf x -> shape x = b :: s -> w <> Other ->
  fwdable (Seq true (p ++ Seq true a :: r)) -> (w = Weight -> skips_param (Seq true (p ++ Seq true a :: r))) ->
  wf v -> shape v = [b; match w with Input => numel s | _ => n_params (Seq true (p ++ Seq true a :: r)) end] ->
  snd (jvp (Seq true (p ++ Seq true a :: r)) h x None v w) = snd (jvp (Seq true (p ++ a ++ r)) h' x None v w).
Proof. exact (fun K N CR p a r s s' b x v h h' w T B W S => splice_jvp p a r s s' b x h h' T B W S v w). Qed.
Print Assumptions C12_jvp.
Theorem C12_jmp : forall (K : Type) (N : Num K) (CR : CRing K) (p a r : list (module K)) s s' b c (x M : tensor K) h h' w,
  typed (Seq true (p ++ Seq true a :: r)) s s' -> 0 < b -> wf x -> shape x = b :: s -> w <> Other ->
  fwdable (Seq true (p ++ Seq true a :: r)) -> (w = Weight -> skips_param (Seq true (p ++ Seq true a :: r))) -> 0 < c ->
  wf M -> shape M = [b; match w with Input => numel s | _ => n_params (Seq true (p ++ Seq true a :: r)) end; c] ->
  snd (jmp (Seq true (p ++ Seq true a :: r)) h x None (Some M) w) = snd (jmp (Seq true (p ++ a ++ r)) h' x None (Some M) w).
Proof. exact (fun K N CR p a r s s' b c x M h h' w T B W S => splice_jmp p a r s s' b x h h' T B W S c M w). Qed.
Print Assumptions C12_jmp.
Theorem C12_jTmjp_input : forall (K : Type) (N : Num K) (CR : CRing K) (p a r : list (module K)) s s' b (x M : tensor K) h h' from_diag to_diag,
  typed (Seq true (p ++ Seq true a :: r)) s s' -> 0 < b -> wf x -> shape x = b :: s ->
  all_sym (Seq true (p ++ Seq true a :: r)) -> nonempty (Seq true (p ++ Seq true a :: r)) -> wf M -> shape M = metric_shape from_diag b (numel s') ->
  snd (jTmjp (Seq true (p ++ Seq true a :: r)) h x None (VT M) Input from_diag to_diag false) =
  snd (jTmjp (Seq true (p ++ a ++ r)) h' x None (VT M) Input from_diag to_diag false).
Proof. exact (fun K N CR p a r s s' b x M h h' fd td T B W S => splice_jTmjp p a r s s' b x h h' T B W S fd td M). Qed.
Print Assumptions C12_jTmjp_input.
(** the weight-wise result is nested like the modules; the tensors in it are the same, in the same order *)
Theorem C12_jTmjp_weight : forall (K : Type) (N : Num K) (CR : CRing K) (p a r : list (module K)) s s' b (x M : tensor K) h h' from_diag to_diag,
  typed (Seq true (p ++ Seq true a :: r)) s s' -> 0 < b -> wf x -> shape x = b :: s ->
  all_sym (Seq true (p ++ Seq true a :: r)) -> nonempty (Seq true (p ++ Seq true a :: r)) -> wf M -> shape M = metric_shape from_diag b (numel s') ->
  exists v v', snd (jTmjp (Seq true (p ++ Seq true a :: r)) h x None (VT M) Weight from_diag to_diag false) = Ok v /\
    snd (jTmjp (Seq true (p ++ a ++ r)) h' x None (VT M) Weight from_diag to_diag false) = Ok v' /\ flat v = flat v'.
Proof. exact (fun K N CR p a r s s' b x M h h' fd td T B W S => splice_jTmjp_weight p a r s s' b x h h' T B W S fd td M). Qed.
Print Assumptions C12_jTmjp_weight.
Theorem C12_jmjTp_input : forall (K : Type) (N : Num K) (CR : CRing K) (p a r : list (module K)) s s' b (x M : tensor K) h h' from_diag to_diag,
  typed (Seq true (p ++ Seq true a :: r)) s s' -> 0 < b -> wf x -> shape x = b :: s ->
  fwdable (Seq true (p ++ Seq true a :: r)) -> nonempty (Seq true (p ++ Seq true a :: r)) -> wf M -> shape M = metric_shape from_diag b (numel s) ->
  snd (jmjTp (Seq true (p ++ Seq true a :: r)) h x None (VT M) Input from_diag to_diag false) =
  snd (jmjTp (Seq true (p ++ a ++ r)) h' x None (VT M) Input from_diag to_diag false).
Proof. exact (fun K N CR p a r s s' b x M h h' fd td T B W S => splice_jmjTp p a r s s' b x h h' T B W S fd td M). Qed.
Print Assumptions C12_jmjTp_input.
Theorem C12_jmjTp_weight : forall (K : Type) (N : Num K) (CR : CRing K) (p a r : list (module K)) s s' b (x M : tensor K) h h' from_diag to_diag,
  typed (Seq true (p ++ Seq true a :: r)) s s' -> 0 < b -> wf x -> shape x = b :: s ->
  fwdable (Seq true (p ++ Seq true a :: r)) -> nonempty (Seq true (p ++ Seq true a :: r)) -> n_params (Seq true (p ++ Seq true a :: r)) <> 0 ->
  wf M -> shape M = metric_shape from_diag b (n_params (Seq true (p ++ Seq true a :: r))) ->
  snd (jmjTp (Seq true (p ++ Seq true a :: r)) h x None (VT M) Weight from_diag to_diag false) =
  snd (jmjTp (Seq true (p ++ a ++ r)) h' x None (VT M) Weight from_diag to_diag false).
Proof. exact (fun K N CR p a r s s' b x M h h' fd td T B W S => splice_jmjTp_weight p a r s s' b x h h' T B W S fd td M). Qed.
Print Assumptions C12_jmjTp_weight.
(** netA ends in a nested Sequential *)
Example C12_case : exists p a, netA = Seq true (p ++ Seq true a :: []) /\ typed netA [2] [2] /\ length p = 3 /\
  snd (vjp netA st0 xA None (tz [2; 2] [1; (-1); 2; 1]%Z) Weight) = snd (vjp (Seq true (p ++ a ++ [])) st0 xA None (tz [2; 2] [1; (-1); 2; 1]%Z) Weight) /\
  exists A B C, snd (jTmjp netA st0 xA None (VT (tz [2; 2] [1; 2; 1; 1]%Z)) Weight true false false) = Ok (VL [VT A; VL [VT B]; VL [VT C]]) /\
  snd (jTmjp (Seq true (p ++ a ++ [])) st0 xA None (VT (tz [2; 2] [1; 2; 1; 1]%Z)) Weight true false false) = Ok (VL [VT A; VL [VT B]; VT C]).
Proof.
  do 2 eexists. split; [apply (f_equal (Seq true)); exact (eq_refl ([_; _; _] ++ [Seq true [_]]))|]. split; [exact netA_typed|].
  split; [reflexivity|]. split; [vm_compute; reflexivity|]. do 3 eexists. split; vm_compute; reflexivity.
Qed.

Theorem C13_adjoint_input : forall (K : Type) (N : Num K) (CR : CRing K) (m : module K) s s' b (x u v : tensor K) h h',
  typed m s s' -> 0 < b -> wf x -> shape x = b :: s -> fwdable m -> wf u -> shape u = [b; numel s'] -> wf v -> shape v = [b; numel s] ->
  exists uJ Jv, snd (vjp m h x None u Input) = Ok (Some uJ) /\ snd (jvp m h' x None v Input) = Ok (Some Jv) /\
    forall q, q < b -> bsum (numel s') (fun i => nmul (get n0 u [q; i]) (get n0 Jv [q; i])) = bsum (numel s) (fun j => nmul (get n0 uJ [q; j]) (get n0 v [q; j])).
Proof. exact (fun K N CR m s s' b x u v h h' T B W S => adjoint_input m s s' b x T B W S h h' u v). Qed.
Print Assumptions C13_adjoint_input.
Theorem C13_adjoint_weight : forall (K : Type) (N : Num K) (CR : CRing K) (m : module K) s s' b (x u v : tensor K) h h',
  typed m s s' -> 0 < b -> wf x -> shape x = b :: s -> fwdable m -> skips_param m -> n_params m <> 0 ->
  wf u -> shape u = [b; numel s'] -> wf v -> shape v = [b; n_params m] ->
  exists uJ Jv, snd (vjp m h x None u Weight) = Ok (Some uJ) /\ snd (jvp m h' x None v Weight) = Ok (Some Jv) /\
    forall q, q < b -> bsum (numel s') (fun i => nmul (get n0 u [q; i]) (get n0 Jv [q; i])) = bsum (n_params m) (fun j => nmul (get n0 uJ [q; j]) (get n0 v [q; j])).
Proof. exact (fun K N CR m s s' b x u v h h' T B W S => adjoint_weight m s s' b x T B W S h h' u v). Qed.
Print Assumptions C13_adjoint_weight.
(** the matrix versions: A (J B) = (A J) B *)
Theorem C13_assoc_input : forall (K : Type) (N : Num K) (CR : CRing K) (m : module K) s s' b r c (x A B : tensor K) h h',
  typed m s s' -> 0 < b -> wf x -> shape x = b :: s -> fwdable m -> 0 < r -> 0 < c -> wf A -> shape A = [b; r; numel s'] -> wf B -> shape B = [b; numel s; c] ->
  exists AJ JB, snd (mjp m h x None (Some A) Input) = Ok (Some AJ) /\ snd (jmp m h' x None (Some B) Input) = Ok (Some JB) /\
    forall q i k, q < b -> i < r -> k < c ->
      bsum (numel s') (fun l => nmul (get n0 A [q; i; l]) (get n0 JB [q; l; k])) = bsum (numel s) (fun l => nmul (get n0 AJ [q; i; l]) (get n0 B [q; l; k])).
Proof. exact (fun K N CR m s s' b r c x A B h h' T Bb W S => adjoint_mat_input m s s' b x T Bb W S h h' r c A B). Qed.
Print Assumptions C13_assoc_input.
Theorem C13_assoc_weight : forall (K : Type) (N : Num K) (CR : CRing K) (m : module K) s s' b r c (x A B : tensor K) h h',
  typed m s s' -> 0 < b -> wf x -> shape x = b :: s -> fwdable m -> skips_param m -> n_params m <> 0 -> 0 < r -> 0 < c ->
  wf A -> shape A = [b; r; numel s'] -> wf B -> shape B = [b; n_params m; c] ->
  exists AJ JB, snd (mjp m h x None (Some A) Weight) = Ok (Some AJ) /\ snd (jmp m h' x None (Some B) Weight) = Ok (Some JB) /\
    forall q i k, q < b -> i < r -> k < c ->
      bsum (numel s') (fun l => nmul (get n0 A [q; i; l]) (get n0 JB [q; l; k])) = bsum (n_params m) (fun l => nmul (get n0 AJ [q; i; l]) (get n0 B [q; l; k])).
Proof. exact (fun K N CR m s s' b r c x A B h h' T Bb W S => adjoint_mat_weight m s s' b x T Bb W S h h' r c A B). Qed.
Print Assumptions C13_assoc_weight.
Example C13_case : typed netA [2] [2] /\ fwdable netA /\ skips_param netA /\ n_params netA = 15 /\
  exists uJ Jv, snd (vjp netA st0 xA None (tz [2; 2] [1; (-1); 2; 1]%Z) Weight) = Ok (Some uJ) /\
    snd (jvp netA st0 xA None (mkT [2; 15] (map Z.of_nat (seq 0 30))) Weight) = Ok (Some Jv) /\
    bsum 2 (fun i => nmul (get n0 (tz [2; 2] [1; (-1); 2; 1]%Z) [1; i]) (get n0 Jv [1; i])) <> 0%Z.
Proof.
  split; [exact netA_typed|]. split; [exact netA_fwdable|]. split; [exact netA_skips|]. split; [reflexivity|].
  do 2 eexists. split; [vm_compute; reflexivity|]. split; [vm_compute; reflexivity|]. vm_compute. discriminate.
Qed.

Theorem C14_vjp : forall (K : Type) (N : Num K) (CR : CRing K) (m : module K) s s' b (x u v : tensor K) (a c : K) h h' h'' w,
  typed m s s' -> 0 < b -> wf x -> shape x = b :: s -> w <> Other -> wf u -> shape u = [b; numel s'] -> wf v -> shape v = [b; numel s'] ->
  exists Yu Yv, snd (vjp m h x None u w) = Ok Yu /\ snd (vjp m h' x None v w) = Ok Yv /\ snd (vjp m h'' x None (lin a c u v) w) = Ok (olin a c Yu Yv).
Proof. exact (fun K N CR m s s' b x u v a c h h' h'' w T B W S => linear_vjp m s s' b x T B W S h h' h'' a c u v w). Qed.
Print Assumptions C14_vjp.
Theorem C14_mjp : forall (K : Type) (N : Num K) (CR : CRing K) (m : module K) s s' b r (x u v : tensor K) (a c : K) h h' h'' w,
  typed m s s' -> 0 < b -> wf x -> shape x = b :: s -> w <> Other -> 0 < r -> wf u -> shape u = [b; r; numel s'] -> wf v -> shape v = [b; r; numel s'] ->
  exists Yu Yv, snd (mjp m h x None (Some u) w) = Ok Yu /\ snd (mjp m h' x None (Some v) w) = Ok Yv /\ snd (mjp m h'' x None (Some (lin a c u v)) w) = Ok (olin a c Yu Yv).
Proof. exact (fun K N CR m s s' b r x u v a c h h' h'' w T B W S => linear_mjp m s s' b x T B W S h h' h'' a c r u v w). Qed.
Print Assumptions C14_mjp.
Theorem C14_jvp : forall (K : Type) (N : Num K) (CR : CRing K) (m : module K) s s' b (x u v : tensor K) (a c : K) h h' h'' w,
  typed m s s' -> 0 < b -> wf x -> shape x = b :: s -> w <> Other -> fwdable m -> (w = Weight -> skips_param m) ->
  wf u -> shape u = [b; match w with Input => numel s | _ => n_params m end] -> wf v -> shape v = [b; match w with Input => numel s | _ => n_params m end] ->
  exists Yu Yv, snd (jvp m h x None u w) = Ok Yu /\ snd (jvp m h' x None v w) = Ok Yv /\ snd (jvp m h'' x None (lin a c u v) w) = Ok (olin a c Yu Yv).
Proof. exact (fun K N CR m s s' b x u v a c h h' h'' w T B W S => linear_jvp m s s' b x T B W S h h' h'' a c u v w). Qed.
Print Assumptions C14_jvp.
Theorem C14_jmp : forall (K : Type) (N : Num K) (CR : CRing K) (m : module K) s s' b k (x u v : tensor K) (a c : K) h h' h'' w,
  typed m s s' -> 0 < b -> wf x -> shape x = b :: s -> w <> Other -> fwdable m -> (w = Weight -> skips_param m) -> 0 < k ->
  wf u -> shape u = [b; match w with Input => numel s | _ => n_params m end; k] -> wf v -> shape v = [b; match w with Input => numel s | _ => n_params m end; k] ->
  exists Yu Yv, snd (jmp m h x None (Some u) w) = Ok Yu /\ snd (jmp m h' x None (Some v) w) = Ok Yv /\ snd (jmp m h'' x None (Some (lin a c u v)) w) = Ok (olin a c Yu Yv).
Proof. exact (fun K N CR m s s' b k x u v a c h h' h'' w T B W S => linear_jmp m s s' b x T B W S h h' h'' a c k u v w). Qed.
Print Assumptions C14_jmp.
Theorem C14_jTmjp : forall (K : Type) (N : Num K) (CR : CRing K) (m : module K) s s' b (x u v : tensor K) (a c : K) h h' h'' w from_diag to_diag,
  typed m s s' -> 0 < b -> wf x -> shape x = b :: s -> w <> Other -> all_sym m -> nonempty m ->
  wf u -> shape u = metric_shape from_diag b (numel s') -> wf v -> shape v = metric_shape from_diag b (numel s') ->
  exists Yu Yv, snd (jTmjp m h x None (VT u) w from_diag to_diag false) = Ok Yu /\ snd (jTmjp m h' x None (VT v) w from_diag to_diag false) = Ok Yv /\
    snd (jTmjp m h'' x None (VT (lin a c u v)) w from_diag to_diag false) = Ok (vlin a c Yu Yv).
Proof. exact (fun K N CR m s s' b x u v a c h h' h'' w fd td T B W S => linear_jTmjp m s s' b x T B W S h h' h'' a c fd td u v w). Qed.
Print Assumptions C14_jTmjp.
Theorem C14_jmjTp : forall (K : Type) (N : Num K) (CR : CRing K) (m : module K) s s' b (x u v : tensor K) (a c : K) h h' h'' w from_diag to_diag,
  typed m s s' -> 0 < b -> wf x -> shape x = b :: s -> w <> Other -> fwdable m -> nonempty m -> (w = Weight -> n_params m <> 0) ->
  wf u -> shape u = metric_shape from_diag b (match w with Input => numel s | _ => n_params m end) ->
  wf v -> shape v = metric_shape from_diag b (match w with Input => numel s | _ => n_params m end) ->
  exists Yu Yv, snd (jmjTp m h x None (VT u) w from_diag to_diag false) = Ok Yu /\ snd (jmjTp m h' x None (VT v) w from_diag to_diag false) = Ok Yv /\
    snd (jmjTp m h'' x None (VT (lin a c u v)) w from_diag to_diag false) = Ok (vlin a c Yu Yv).
Proof. exact (fun K N CR m s s' b x u v a c h h' h'' w fd td T B W S => linear_jmjTp m s s' b x T B W S h h' h'' a c fd td u v w). Qed.
Print Assumptions C14_jmjTp.
Example C14_case : typed netA [2] [2] /\ all_sym netA /\ nonempty netA /\
  lin 3%Z (-2)%Z (tz [2; 2] [1; 2; 1; 1]%Z) (tz [2; 2] [0; 1; 4; 1]%Z) = tz [2; 2] [3; 4; (-5); 1]%Z /\
  exists Yu Yv, snd (jTmjp netA st0 xA None (VT (tz [2; 2] [1; 2; 1; 1]%Z)) Weight true false false) = Ok Yu /\
    snd (jTmjp netA st0 xA None (VT (tz [2; 2] [0; 1; 4; 1]%Z)) Weight true false false) = Ok Yv /\
    snd (jTmjp netA st0 xA None (VT (tz [2; 2] [3; 4; (-5); 1]%Z)) Weight true false false) = Ok (vlin 3%Z (-2)%Z Yu Yv) /\
    map shape (flat (vlin 3%Z (-2)%Z Yu Yv)) = [[2; 6; 6]; [2; 3; 3]; [2; 6; 6]].
Proof.
  split; [exact netA_typed|]. split; [exact netA_sym|]. split; [exact netA_nonempty|]. split; [vm_compute; reflexivity|].
  do 2 eexists. split; [vm_compute; reflexivity|]. split; [vm_compute; reflexivity|]. split; vm_compute; reflexivity.
Qed.

Theorem C21_symmetric_jTmjp_input : forall (K : Type) (N : Num K) (CR : CRing K) (m : module K) s s' b (x M : tensor K) h from_diag,
  typed m s s' -> 0 < b -> wf x -> shape x = b :: s -> all_sym m -> nonempty m -> wf M -> shape M = metric_shape from_diag b (numel s') ->
  (forall q, q < b -> sym_at (numel s') (metric from_diag M) q) ->
  exists G, snd (jTmjp m h x None (VT M) Input from_diag false false) = Ok (VT G) /\ square_sym b (numel s) G.
Proof. exact (fun K N CR m s s' b x M h fd T B W S => sym_jTmjp_input m s s' b x T B W S h fd M). Qed.
Print Assumptions C21_symmetric_jTmjp_input.
Theorem C21_symmetric_jTmjp_weight : forall (K : Type) (N : Num K) (CR : CRing K) (m : module K) s s' b (x M : tensor K) h from_diag,
  typed m s s' -> 0 < b -> wf x -> shape x = b :: s -> all_sym m -> nonempty m -> wf M -> shape M = metric_shape from_diag b (numel s') ->
  (forall q, q < b -> sym_at (numel s') (metric from_diag M) q) ->
  exists G, snd (jTmjp m h x None (VT M) Weight from_diag false false) = Ok G /\ all_blocks (fun t => exists n, square_sym b n t) G.
Proof. exact (fun K N CR m s s' b x M h fd T B W S => sym_jTmjp_weight m s s' b x T B W S h fd M). Qed.
Print Assumptions C21_symmetric_jTmjp_weight.
Theorem C21_symmetric_jmjTp_input : forall (K : Type) (N : Num K) (CR : CRing K) (m : module K) s s' b (x M : tensor K) h from_diag,
  typed m s s' -> 0 < b -> wf x -> shape x = b :: s -> fwdable m -> nonempty m -> wf M -> shape M = metric_shape from_diag b (numel s) ->
  (forall q, q < b -> sym_at (numel s) (metric from_diag M) q) ->
  exists G, snd (jmjTp m h x None (VT M) Input from_diag false false) = Ok (VT G) /\ square_sym b (numel s') G.
Proof. exact (fun K N CR m s s' b x M h fd T B W S => sym_jmjTp_input m s s' b x T B W S h fd M). Qed.
Print Assumptions C21_symmetric_jmjTp_input.
Theorem C21_symmetric_jmjTp_weight : forall (K : Type) (N : Num K) (CR : CRing K) (m : module K) s s' b (x M : tensor K) h from_diag,
  typed m s s' -> 0 < b -> wf x -> shape x = b :: s -> fwdable m -> nonempty m -> n_params m <> 0 -> wf M -> shape M = metric_shape from_diag b (n_params m) ->
  (forall q, q < b -> sym_at (n_params m) (metric from_diag M) q) ->
  exists G, snd (jmjTp m h x None (VT M) Weight from_diag false false) = Ok (VT G) /\ square_sym b (numel s') G.
Proof. exact (fun K N CR m s s' b x M h fd T B W S => sym_jmjTp_weight m s s' b x T B W S h fd M). Qed.
Print Assumptions C21_symmetric_jmjTp_weight.
(** over the reals: positive semidefinite in, positive semidefinite (to_diag: nonnegative) out *)
Theorem C21_psd_jTmjp_input : forall (m : module R) s s' b (x M : tensor R) h from_diag to_diag,
  typed m s s' -> 0 < b -> wf x -> shape x = b :: s -> all_sym m -> nonempty m -> wf M -> shape M = metric_shape from_diag b (numel s') ->
  (forall q, q < b -> sym_at (numel s') (metric from_diag M) q /\ psd_at (numel s') (metric from_diag M) q) ->
  exists G, snd (jTmjp m h x None (VT M) Input from_diag to_diag false) = Ok (VT G) /\ psd_shaped to_diag b (numel s) G.
Proof. exact (fun m s s' b x M h fd td T B W S => psd_jTmjp_input m s s' b x T B W S h fd td M). Qed.
Print Assumptions C21_psd_jTmjp_input.
Theorem C21_psd_jTmjp_weight : forall (m : module R) s s' b (x M : tensor R) h from_diag to_diag,
  typed m s s' -> 0 < b -> wf x -> shape x = b :: s -> all_sym m -> nonempty m -> wf M -> shape M = metric_shape from_diag b (numel s') ->
  (forall q, q < b -> sym_at (numel s') (metric from_diag M) q /\ psd_at (numel s') (metric from_diag M) q) ->
  exists G, snd (jTmjp m h x None (VT M) Weight from_diag to_diag false) = Ok G /\ all_blocks (fun t => exists n, psd_shaped to_diag b n t) G.
Proof. exact (fun m s s' b x M h fd td T B W S => psd_jTmjp_weight m s s' b x T B W S h fd td M). Qed.
Print Assumptions C21_psd_jTmjp_weight.
Theorem C21_psd_jmjTp_input : forall (m : module R) s s' b (x M : tensor R) h from_diag to_diag,
  typed m s s' -> 0 < b -> wf x -> shape x = b :: s -> fwdable m -> nonempty m -> wf M -> shape M = metric_shape from_diag b (numel s) ->
  (forall q, q < b -> sym_at (numel s) (metric from_diag M) q /\ psd_at (numel s) (metric from_diag M) q) ->
  exists G, snd (jmjTp m h x None (VT M) Input from_diag to_diag false) = Ok (VT G) /\ psd_shaped to_diag b (numel s') G.
Proof. exact (fun m s s' b x M h fd td T B W S => psd_jmjTp_input m s s' b x T B W S h fd td M). Qed.
Print Assumptions C21_psd_jmjTp_input.
Theorem C21_psd_jmjTp_weight : forall (m : module R) s s' b (x M : tensor R) h from_diag to_diag,
  typed m s s' -> 0 < b -> wf x -> shape x = b :: s -> fwdable m -> nonempty m -> n_params m <> 0 -> wf M -> shape M = metric_shape from_diag b (n_params m) ->
  (forall q, q < b -> sym_at (n_params m) (metric from_diag M) q /\ psd_at (n_params m) (metric from_diag M) q) ->
  exists G, snd (jmjTp m h x None (VT M) Weight from_diag to_diag false) = Ok (VT G) /\ psd_shaped to_diag b (numel s') G.
Proof. exact (fun m s s' b x M h fd td T B W S => psd_jmjTp_weight m s s' b x T B W S h fd td M). Qed.
Print Assumptions C21_psd_jmjTp_weight.
(** a diagonal metric meets the hypothesis as soon as its entries are nonnegative *)
Theorem C21_diagonal_psd : forall n (M : tensor R) q, (forall j, j < n -> (0 <= get 0 M [q; j])%R) ->
  sym_at n (metric true M) q /\ psd_at n (metric true M) q.
Proof. exact (fun n M q P => conj (metric_true_sym n M q) (psd_diagonal n M q P)). Qed.
Print Assumptions C21_diagonal_psd.
Example C21_case_psd : typed netR [2] [2] /\ all_sym netR /\ nonempty netR /\ let M := tr [2; 2] [2; 3; 1; 0]%R in
  (forall q, q < 2 -> sym_at 2 (metric true M) q /\ psd_at 2 (metric true M) q) /\
  exists G, snd (jTmjp netR st0 xR None (VT M) Weight true false false) = Ok G /\ all_blocks (fun t => exists n, psd_shaped false 2 n t) G.
Proof.
  split; [exact netR_typed|]. split; [cbn; tauto|]. split; [cbn; repeat split; discriminate|]. intros M.
  assert (P : forall q, q < 2 -> sym_at 2 (metric true M) q /\ psd_at 2 (metric true M) q).
  { intros q Hq. apply C21_diagonal_psd. intros j Hj. destruct q as [|[|q]], j as [|[|j]]; try lia; [change (0 <= 2)%R|change (0 <= 3)%R|change (0 <= 1)%R|change (0 <= 0)%R]; lra. }
  split; [exact P|]. apply (C21_psd_jTmjp_weight netR [2] [2] 2 xR M st0 true false netR_typed); try reflexivity; auto; cbn; repeat split; discriminate.
Qed.
Example C21_case : typed netA [2] [2] /\ all_sym netA /\ nonempty netA /\
  snd (jTmjp netA st0 xA None (VT (tz [2; 2] [1; 2; 1; 1]%Z)) Input true false false) = Ok (VT (tz [2; 2; 2] [27; 54; 54; 108; 170; 88; 88; 64]%Z)).
Proof. split; [exact netA_typed|]. split; [exact netA_sym|]. split; [exact netA_nonempty|]. vm_compute; reflexivity. Qed.
