(** C20 (diag_backprop), C34 (the README call).  [h] is an arbitrary hidden state (whatever calls were made before). *)
From Coq Require Import List Arith ZArith Bool Lia Reals.
From Verif Require Import Scalar Sums Tensor Conv Abstract Simple LinearLayer ConvLayer PoolLayer Module Spec Domain Calls Trees DiagSpec DiagBack DiagExact Examples.
Import ListNotations.
Local Open Scope nat_scope.
Local Open Scope list_scope.

Theorem C20_jTmjp_input : forall (K : Type) (N : Num K) (CR : CRing K) (m : module K) s s' b (x M : tensor K) h,
  typed m s s' -> all_sym m -> 0 < b -> wf x -> shape x = b :: s -> wf M -> shape M = [b; numel s'] ->
  snd (jTmjp m h x None (VT M) Input true true true) = Ok (VT (tab2 b (numel s) (dpull m x (fun q i => get n0 M [q; i])))).
Proof. exact (fun K N CR m s s' b x M h T Sy B W S WM SM => proj1 (dback_none m s s' b h x M T Sy B W S WM SM)). Qed.
Print Assumptions C20_jTmjp_input.
Theorem C20_jTmjp_weight : forall (K : Type) (N : Num K) (CR : CRing K) (m : module K) s s' b (x M : tensor K) h,
  typed m s s' -> all_sym m -> 0 < b -> wf x -> shape x = b :: s -> wf M -> shape M = [b; numel s'] ->
  snd (jTmjp m h x None (VT M) Weight true true true) =
    Ok (if n_params m =? 0 then VNone else VT (tab2 b (n_params m) (dpullw m x (fun q i => get n0 M [q; i])))).
Proof. exact (fun K N CR m s s' b x M h T Sy B W S WM SM => proj2 (dback_none m s s' b h x M T Sy B W S WM SM)). Qed.
Print Assumptions C20_jTmjp_weight.
Theorem C20_jmjTp_input : forall (K : Type) (N : Num K) (CR : CRing K) (m : module K) s s' b (x M : tensor K) h,
  typed m s s' -> fwdable m -> 0 < b -> wf x -> shape x = b :: s -> wf M -> shape M = [b; numel s] ->
  snd (jmjTp m h x None (VT M) Input true true true) = Ok (VT (tab2 b (numel s') (dpush m x (fun q i => get n0 M [q; i])))).
Proof. exact (fun K N CR m s s' b x M h T F B W S => proj1 (dforth_none m s s' b h x T F B W S) M). Qed.
Print Assumptions C20_jmjTp_input.
Theorem C20_jmjTp_weight : forall (K : Type) (N : Num K) (CR : CRing K) (m : module K) s s' b (x M : tensor K) h,
  typed m s s' -> fwdable m -> 0 < b -> wf x -> shape x = b :: s -> n_params m <> 0 -> wf M -> shape M = [b; n_params m] ->
  snd (jmjTp m h x None (VT M) Weight true true true) = Ok (VT (tab2 b (numel s') (dpushw m x (fun q p => get n0 M [q; p])))).
Proof. exact (fun K N CR m s s' b x M h T F B W S Hn WM SM => dforth_weight m s s' b h x M T F B W S Hn WM SM). Qed.
Print Assumptions C20_jmjTp_weight.
Example C20_case : exists t, typed netA [2] [2] /\ all_sym netA /\ fwdable netA /\ n_params netA = 15 /\
  snd (jTmjp netA st0 xA None (VT (tz [2; 2] [1; 2; 3; 4]%Z)) Weight true true true) = Ok (VT t) /\
  shape t = [2; 15] /\ firstn 4 (data t) = [27; 108; 0; 0]%Z.
Proof. eexists. split; [exact netA_typed|]. split; [exact netA_sym|]. split; [exact netA_fwdable|]. repeat split; vm_compute; reflexivity. Qed.

(** nonnegative in, nonnegative out *)
Theorem C20_nonneg_back : forall (m : module R) s s' b (x : tensor R) (d : nat -> nat -> R),
  typed m s s' -> 0 < b -> wf x -> shape x = b :: s -> (forall q i, q < b -> i < numel s' -> (0 <= d q i)%R) ->
  (forall q j, q < b -> j < numel s -> (0 <= dpull m x d q j)%R) /\ (forall q p, q < b -> p < n_params m -> (0 <= dpullw m x d q p)%R).
Proof. exact (fun m s s' b x d T B W S P => dback_nneg m s s' b x d T B W S P). Qed.
Print Assumptions C20_nonneg_back.
Theorem C20_nonneg_forth : forall (m : module R) s s' b (x : tensor R) (d : nat -> nat -> R),
  typed m s s' -> 0 < b -> wf x -> shape x = b :: s ->
  ((forall q i, q < b -> i < numel s -> (0 <= d q i)%R) -> forall q i, q < b -> i < numel s' -> (0 <= dpush m x d q i)%R) /\
  ((forall q p, q < b -> p < n_params m -> (0 <= d q p)%R) -> forall q i, q < b -> i < numel s' -> (0 <= dpushw m x d q i)%R).
Proof. exact (fun m s s' b x d T B W S => dforth_nneg m s s' b x d T B W S). Qed.
Print Assumptions C20_nonneg_forth.

(** exact when every intermediate metric is diagonal *)
Theorem C20_exact_back : forall (K : Type) (N : Num K) (CR : CRing K) (m : module K) s s' b (x : tensor K) d,
  typed m s s' -> 0 < b -> wf x -> shape x = b :: s -> diag_chain b m x (numel s') d ->
  (forall q j, q < b -> j < numel s -> dpull m x d q j = pull_at (numel s') (layer_J m x Input) (dmat d) q j j) /\
  (forall q p, q < b -> p < n_params m -> dpullw m x d q p = pull_at (numel s') (layer_J m x Weight) (dmat d) q p p).
Proof. exact (fun K N CR m s s' b x d T B W S C => back_exact m s s' b x d T B W S C). Qed.
Print Assumptions C20_exact_back.
Example C20_exact_case : typed netD [2] [2] /\ diag_chain 2 netD xA 2 dD /\ dpull netD xA dD 0 1 = 36%Z.
Proof. split; [exact netD_typed|]. split; [exact netD_chain|]. vm_compute. reflexivity. Qed.
(** without that hypothesis the approximation differs from the exact diagonal *)
Example C20_approximation : typed netA [2] [2] /\ dpull netA xA dD 1 0 <> pull_at 2 (layer_J netA xA Input) (dmat dD) 1 0 0.
Proof. split; [exact netA_typed|]. vm_compute. discriminate. Qed.
Theorem C20_exact_forth : forall (K : Type) (N : Num K) (CR : CRing K) (m : module K) s s' b (x : tensor K),
  typed m s s' -> 0 < b -> wf x -> shape x = b :: s ->
  (forall d, push_chain b m x d -> forall q i, q < b -> i < numel s' -> dpush m x d q i = push_at (numel s) (layer_J m x Input) (dmat d) q i i) /\
  (forall d, pushw_chain b m x d -> forall q i, q < b -> i < numel s' ->
     dpushw m x d q i = push_at (n_params m) (layer_J m x Weight) (dmat d) q i i).
Proof. exact (fun K N CR m s s' b x T B W S => forth_exact m s s' b x T B W S). Qed.
Print Assumptions C20_exact_forth.
Example C20_exact_forth_case : typed netD' [2] [2] /\ push_chain 2 netD' xA dD /\ pushw_chain 2 netD' xA dD /\ dpushw netD' xA dD 0 0 <> 0%Z.
Proof. split; [exact netD'_typed|]. split; [exact (proj1 netD'_chain)|]. split; [exact (proj2 netD'_chain)|]. vm_compute. discriminate. Qed.

(** C34, full claim: the documented call returns the approximate diagonal.  The call raises for every Sequential and input
    (refutation); with from_diag=True added it returns what is documented. *)
Theorem C34_refuted : forall (K : Type) (N : Num K) hooks (ms : list (module K)) (x : tensor K) val w h,
  snd (jTmjp (Seq hooks ms) h x val VNone w false true true) = Raise AssertionError.
Proof. exact (fun K N hooks ms x val w h => eq_refl). Qed.
Print Assumptions C34_refuted.
Theorem C34_partial : forall (K : Type) (N : Num K) (CR : CRing K) hooks (ms : list (module K)) s s' b (x : tensor K) h,
  typed (Seq hooks ms) s s' -> all_sym (Seq hooks ms) -> 0 < b -> wf x -> shape x = b :: s ->
  snd (jTmjp (Seq hooks ms) h x None VNone Weight true true true) =
    Ok (if n_params (Seq hooks ms) =? 0 then VNone else VT (tab2 b (n_params (Seq hooks ms)) (dpullw (Seq hooks ms) x (fun _ _ => n1)))) /\
  snd (jTmjp (Seq hooks ms) h x None VNone Input true true true) = Ok (VT (tab2 b (numel s) (dpull (Seq hooks ms) x (fun _ _ => n1)))).
Proof. exact (fun K N CR hooks ms s s' b x h T Sy B W S => default_metric hooks ms s s' b h x T Sy B W S). Qed.
Print Assumptions C34_partial.
Example C34_case : exists t, snd (jTmjp netB st0 xB None VNone Weight true true true) = Ok (VT t) /\ shape t = [1; 53].
Proof. eexists. split; vm_compute; reflexivity. Qed.
