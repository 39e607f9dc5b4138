(** C19: batch independence.  [pick n f t] is the batch of samples f 0, ..., f (n-1) of t.  For every
    selection of samples (with repetition and in any order) each method answers on the selected batch with
    the selected samples of its answer on the full batch.  [h] and [h'] are arbitrary hidden states. *)
From Coq Require Import List Arith ZArith Bool Lia.
From Verif Require Import Scalar Tensor Abstract Module Spec Domain BatchSpec BatchProofs BatchDiag Examples BatchWitness.
Import ListNotations.
Local Open Scope nat_scope.
Local Open Scope list_scope.

Theorem C19_forward :
  forall (K : Type) (N : Num K) (CR : CRing K) (m : module K) (s s' : list nat) (b n : nat) (f : nat -> nat) (x : tensor K) (h h' : st K),
  typed m s s' -> batchwise m -> 0 < b -> wf x -> shape x = b :: s -> 0 < n -> selects n f b ->
  exists y, snd (forward m h x) = Ok y /\ wf y /\ shape y = b :: s' /\ snd (forward m h' (pick n f x)) = Ok (pick n f y).
Proof. exact (fun K N CR m s s' b n f x h h' T W B X S Hn F => forward_pick m s s' b n f x T W B X S Hn F h h'). Qed.
Print Assumptions C19_forward.
Example C19_case : typed netA [2] [2] /\ batchwise netA /\ wf xA /\ shape xA = 2 :: [2] /\ selects 3 (fun i => 1 - i) 2 /\
  snd (forward netA st0 xA) = Ok (tz [2; 2] [36; 9; 32; 21]%Z) /\
  snd (forward netA st0 (tz [3; 2] [3; (-1); 1; 2; 1; 2]%Z)) = Ok (tz [3; 2] [32; 21; 36; 9; 36; 9]%Z) /\
  pick 3 (fun i => 1 - i) xA = tz [3; 2] [3; (-1); 1; 2; 1; 2]%Z.
Proof. split; [exact netA_typed|]. split; [exact netA_batchwise|]. repeat split; try (vm_compute; reflexivity). intros i Hi. lia. Qed.
(** a user-defined layer that meets [batchwise] *)
Example C19_case_custom : typed netC [2] [2] /\ batchwise netC /\
  snd (forward netC st0 xA) = Ok (tz [2; 2] [10; 2; 2; 20]%Z) /\
  snd (forward netC st0 (sample 1 xA)) = Ok (tz [1; 2] [2; 20]%Z).
Proof. split; [exact netC_typed|]. split; [exact netC_batchwise|]. split; vm_compute; reflexivity. Qed.

Theorem C19_jacobian :
  forall (K : Type) (N : Num K) (CR : CRing K) (m : module K) (s s' : list nat) (b n : nat) (f : nat -> nat) (x : tensor K) (h h' : st K) (w : wrt),
  typed m s s' -> batchwise m -> 0 < b -> wf x -> shape x = b :: s -> 0 < n -> selects n f b ->
  w = Input \/ w = Weight /\ n_params m <> 0 ->
  exists J, snd (jacobian m h x None w) = Ok (Some J) /\ snd (jacobian m h' (pick n f x) None w) = Ok (Some (pick n f J)).
Proof. exact (fun K N CR m s s' b n f x h h' w T W B X S Hn F => jacobian_pick m s s' b n f x T W B X S Hn F w h h'). Qed.
Print Assumptions C19_jacobian.

(** an answer on the full batch and on the selected one: None for both, or the selected samples *)
Theorem C19_vjp :
  forall (K : Type) (N : Num K) (CR : CRing K) (m : module K) (s s' : list nat) (b n : nat) (f : nat -> nat) (x v : tensor K) (h h' : st K) (w : wrt),
  typed m s s' -> batchwise m -> 0 < b -> wf x -> shape x = b :: s -> 0 < n -> selects n f b ->
  w <> Other -> wf v -> shape v = [b; numel s'] ->
  exists r, snd (vjp m h x None v w) = Ok r /\ snd (vjp m h' (pick n f x) None (pick n f v) w) = Ok (option_map (pick n f) r).
Proof. exact (fun K N CR m s s' b n f x v h h' w T W B X S Hn F => vjp_pick m s s' b n f x T W B X S Hn F w h h' v). Qed.
Print Assumptions C19_vjp.
Example C19_vjp_case : batchwise netB /\ typed netB [16] [1] /\ wf xB2 /\ shape xB2 = 2 :: [16] /\
  exists r r1, snd (vjp netB st0 xB2 None (tz [2; 1] [2; 3]%Z) Input) = Ok (Some r) /\ shape r = [2; 16] /\
    snd (vjp netB st0 (sample 1 xB2) None (tz [1; 1] [3]%Z) Input) = Ok (Some r1) /\ r1 = sample 1 r /\ r1 <> sample 0 r.
Proof.
  split; [exact netB_batchwise|]. split; [exact netB_typed|]. split; [reflexivity|]. split; [reflexivity|].
  eexists. eexists. split; [vm_compute; reflexivity|]. split; [reflexivity|]. split; [vm_compute; reflexivity|].
  split; [vm_compute; reflexivity|vm_compute; discriminate].
Qed.

Theorem C19_mjp :
  forall (K : Type) (N : Num K) (CR : CRing K) (m : module K) (s s' : list nat) (b n r : nat) (f : nat -> nat) (x M : tensor K) (h h' : st K) (w : wrt),
  typed m s s' -> batchwise m -> 0 < b -> wf x -> shape x = b :: s -> 0 < n -> selects n f b ->
  w <> Other -> 0 < r -> wf M -> shape M = [b; r; numel s'] ->
  exists o, snd (mjp m h x None (Some M) w) = Ok o /\ snd (mjp m h' (pick n f x) None (Some (pick n f M)) w) = Ok (option_map (pick n f) o).
Proof. exact (fun K N CR m s s' b n r f x M h h' w T W B X S Hn F Hw => mjp_pick m s s' b n f x T W B X S Hn F w h h' r M Hw). Qed.
Print Assumptions C19_mjp.

Theorem C19_jvp :
  forall (K : Type) (N : Num K) (CR : CRing K) (m : module K) (s s' : list nat) (b n : nat) (f : nat -> nat) (x v : tensor K) (h h' : st K) (w : wrt),
  typed m s s' -> batchwise m -> 0 < b -> wf x -> shape x = b :: s -> 0 < n -> selects n f b ->
  fwdable m -> w = Input \/ w = Weight /\ skips_param m ->
  wf v -> shape v = [b; match w with Input => numel s | _ => n_params m end] ->
  exists o, snd (jvp m h x None v w) = Ok o /\ snd (jvp m h' (pick n f x) None (pick n f v) w) = Ok (option_map (pick n f) o).
Proof. exact (fun K N CR m s s' b n f x v h h' w T W B X S Hn F => jvp_pick m s s' b n f x T W B X S Hn F w h h' v). Qed.
Print Assumptions C19_jvp.

Theorem C19_jmp :
  forall (K : Type) (N : Num K) (CR : CRing K) (m : module K) (s s' : list nat) (b n c : nat) (f : nat -> nat) (x M : tensor K) (h h' : st K) (w : wrt),
  typed m s s' -> batchwise m -> 0 < b -> wf x -> shape x = b :: s -> 0 < n -> selects n f b ->
  fwdable m -> w = Input \/ w = Weight /\ skips_param m -> 0 < c ->
  wf M -> shape M = [b; match w with Input => numel s | _ => n_params m end; c] ->
  exists o, snd (jmp m h x None (Some M) w) = Ok o /\ snd (jmp m h' (pick n f x) None (Some (pick n f M)) w) = Ok (option_map (pick n f) o).
Proof. exact (fun K N CR m s s' b n c f x M h h' w T W B X S Hn F => jmp_pick m s s' b n f x T W B X S Hn F w h h' c M). Qed.
Print Assumptions C19_jmp.

Theorem C19_jTmjp :
  forall (K : Type) (N : Num K) (CR : CRing K) (m : module K) (s s' : list nat) (b n : nat) (f : nat -> nat) (x M : tensor K) (h h' : st K) (w : wrt) (from_diag to_diag : bool),
  typed m s s' -> batchwise m -> 0 < b -> wf x -> shape x = b :: s -> 0 < n -> selects n f b ->
  all_sym m -> nonempty m -> w <> Other -> wf M -> shape M = metric_shape from_diag b (numel s') ->
  exists r, snd (jTmjp m h x None (VT M) w from_diag to_diag false) = Ok r /\
    snd (jTmjp m h' (pick n f x) None (VT (pick n f M)) w from_diag to_diag false) = Ok (vpick n f r).
Proof. exact (fun K N CR m s s' b n f x M h h' w fd td T W B X S Hn F => jTmjp_pick m s s' b n f x T W B X S Hn F w h h' fd td M). Qed.
Print Assumptions C19_jTmjp.
Example C19_jTmjp_case : all_sym netA /\ nonempty netA /\
  exists r r1, snd (jTmjp netA st0 xA None (VT (tz [2; 2] [1; 2; 3; 4]%Z)) Weight true false false) = Ok r /\
    snd (jTmjp netA st0 (sample 1 xA) None (VT (tz [1; 2] [3; 4]%Z)) Weight true false false) = Ok r1 /\
    r1 = vpick 1 (fun _ => 1) r /\ r1 <> vpick 1 (fun _ => 0) r.
Proof.
  split; [exact netA_sym|]. split; [exact netA_nonempty|].
  eexists. eexists. split; [vm_compute; reflexivity|]. split; [vm_compute; reflexivity|].
  split; [vm_compute; reflexivity|vm_compute; discriminate].
Qed.

Theorem C19_jmjTp_input :
  forall (K : Type) (N : Num K) (CR : CRing K) (m : module K) (s s' : list nat) (b n : nat) (f : nat -> nat) (x M : tensor K) (h h' : st K) (from_diag to_diag : bool),
  typed m s s' -> batchwise m -> 0 < b -> wf x -> shape x = b :: s -> 0 < n -> selects n f b ->
  fwdable m -> nonempty m -> wf M -> shape M = metric_shape from_diag b (numel s) ->
  exists r, snd (jmjTp m h x None (VT M) Input from_diag to_diag false) = Ok r /\
    snd (jmjTp m h' (pick n f x) None (VT (pick n f M)) Input from_diag to_diag false) = Ok (vpick n f r).
Proof. exact (fun K N CR m s s' b n f x M h h' fd td T W B X S Hn F => jmjTp_input_pick m s s' b n f x T W B X S Hn F h h' fd td M). Qed.
Print Assumptions C19_jmjTp_input.
(** the parameter metric as one tensor or as (nested) lists of blocks ([rep] in Domain.v) *)
Theorem C19_jmjTp_weight :
  forall (K : Type) (N : Num K) (CR : CRing K) (m : module K) (s s' : list nat) (b n : nat) (f : nat -> nat) (x : tensor K)
    (R : nat -> nat -> nat -> K) (v : value K) (h h' : st K) (from_diag to_diag : bool),
  typed m s s' -> batchwise m -> 0 < b -> wf x -> shape x = b :: s -> 0 < n -> selects n f b ->
  fwdable m -> nonempty m -> n_params m <> 0 -> rep from_diag b R m 0 v ->
  exists r, snd (jmjTp m h x None v Weight from_diag to_diag false) = Ok r /\
    snd (jmjTp m h' (pick n f x) None (vpick n f v) Weight from_diag to_diag false) = Ok (vpick n f r).
Proof. exact (fun K N CR m s s' b n f x R v h h' fd td T W B X S Hn F => jmjTp_weight_pick m s s' b n f x T W B X S Hn F h h' fd td R v). Qed.
Print Assumptions C19_jmjTp_weight.

(** the approximations with diag_backprop=True *)
Theorem C19_jTmjp_approx :
  forall (K : Type) (N : Num K) (CR : CRing K) (m : module K) (s s' : list nat) (b n : nat) (f : nat -> nat) (x M : tensor K) (h h' : st K) (w : wrt),
  typed m s s' -> batchwise m -> 0 < b -> wf x -> shape x = b :: s -> 0 < n -> selects n f b ->
  all_sym m -> w <> Other -> wf M -> shape M = [b; numel s'] ->
  exists r, snd (jTmjp m h x None (VT M) w true true true) = Ok r /\
    snd (jTmjp m h' (pick n f x) None (VT (pick n f M)) w true true true) = Ok (vpick n f r).
Proof. exact (fun K N CR m s s' b n f x M h h' w T W B X S Hn F Sy Hw WM => dback_pick m s s' b n f x M T W B X S Hn F WM w h h' Sy Hw). Qed.
Print Assumptions C19_jTmjp_approx.
Theorem C19_jmjTp_approx :
  forall (K : Type) (N : Num K) (CR : CRing K) (m : module K) (s s' : list nat) (b n : nat) (f : nat -> nat) (x M : tensor K) (h h' : st K) (w : wrt),
  typed m s s' -> batchwise m -> 0 < b -> wf x -> shape x = b :: s -> 0 < n -> selects n f b ->
  fwdable m -> w = Input \/ w = Weight /\ n_params m <> 0 ->
  wf M -> shape M = [b; match w with Input => numel s | _ => n_params m end] ->
  exists r, snd (jmjTp m h x None (VT M) w true true true) = Ok r /\
    snd (jmjTp m h' (pick n f x) None (VT (pick n f M)) w true true true) = Ok (vpick n f r).
Proof. exact (fun K N CR m s s' b n f x M h h' w T W B X S Hn F Fd Hw WM => dforth_pick m s s' b n f x M T W B X S Hn F WM w h h' Fd Hw). Qed.
Print Assumptions C19_jmjTp_approx.

(** running the samples one at a time and stacking *)
Theorem C19_stack : forall (K : Type) (N : Num K) (CR : CRing K) (t : tensor K) (b : nat) (s : list nat),
  0 < b -> wf t -> shape t = b :: s -> cat n0 0 (map (fun q => sample q t) (seq 0 b)) = Ok t.
Proof. exact (fun K N CR t b s => stack_samples t b s). Qed.
Print Assumptions C19_stack.
Theorem C19_forward_stack :
  forall (K : Type) (N : Num K) (CR : CRing K) (m : module K) (s s' : list nat) (b : nat) (x : tensor K) (h : st K) (h' : nat -> st K),
  typed m s s' -> batchwise m -> 0 < b -> wf x -> shape x = b :: s ->
  exists ys, (forall q, q < b -> snd (forward m (h' q) (sample q x)) = Ok (ys q)) /\
    snd (forward m h x) = cat n0 0 (map ys (seq 0 b)).
Proof. exact (fun K N CR m s s' b x h h' T W B X S => forward_stack m s s' b x T W B X S h h'). Qed.
Print Assumptions C19_forward_stack.
Theorem C19_vjp_stack :
  forall (K : Type) (N : Num K) (CR : CRing K) (m : module K) (s s' : list nat) (b : nat) (x v : tensor K) (h : st K) (h' : nat -> st K),
  typed m s s' -> batchwise m -> 0 < b -> wf x -> shape x = b :: s -> wf v -> shape v = [b; numel s'] ->
  exists rs, (forall q, q < b -> snd (vjp m (h' q) (sample q x) None (sample q v) Input) = Ok (Some (rs q))) /\
    snd (vjp m h x None v Input) = (t <- cat n0 0 (map rs (seq 0 b)) ;; Ok (Some t)).
Proof. exact (fun K N CR m s s' b x v h h' T W B X S => vjp_stack m s s' b x T W B X S h h' v). Qed.
Print Assumptions C19_vjp_stack.

(** the hypothesis [batchwise] is about user-defined layers only and cannot be dropped *)
Theorem C19_custom_refuted : exists (m : module Z) s s' b n f (x y : tensor Z),
  typed m s s' /\ 0 < b /\ wf x /\ shape x = b :: s /\ 0 < n /\ selects n f b /\
  snd (forward m st0 x) = Ok y /\ snd (forward m st0 (pick n f x)) <> Ok (pick n f y).
Proof. exact center_not_independent. Qed.
Print Assumptions C19_custom_refuted.
