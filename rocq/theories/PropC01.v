(** C01-C09: every product method multiplies by the matrix that jacobian returns.
    [h] and [h'] are arbitrary hidden states (whatever calls were made before). *)
From Coq Require Import List Arith ZArith Bool Lia.
From Verif Require Import Scalar Tensor Abstract Module Spec Domain Trees Examples.
Import ListNotations.
Local Open Scope nat_scope.
Local Open Scope list_scope.

Theorem C01_vjp_input :
  forall (K : Type) (N : Num K) (CR : CRing K) (m : module K) (s s' : list nat) (b : nat) (x v : tensor K) (h h' : st K),
  typed m s s' -> 0 < b -> wf x -> shape x = b :: s -> wf v -> shape v = [b; numel s'] ->
  exists J, snd (jacobian m h x None Input) = Ok (Some J) /\ wf J /\ shape J = [b; numel s'; numel s] /\
    snd (vjp m h' x None v Input) = Ok (Some (vJ b (numel s') (numel s) (entry J) v)).
Proof. exact (fun K N CR m s s' b x v h h' T B W S => vjp_input m s s' b x T B W S h h' v). Qed.
Print Assumptions C01_vjp_input.
Example C01_case : typed netA [2] [2] /\ wf xA /\ shape xA = 2 :: [2] /\
  snd (jacobian netA st0 xA None Input) = Ok (Some (tz [2; 2; 2] [5; 10; 1; 2; 11; 8; 7; 0]%Z)) /\
  snd (vjp netA st0 xA None (tz [2; 2] [1; (-1); 2; 1]%Z) Input) = Ok (Some (tz [2; 2] [4; 8; 29; 16]%Z)).
Proof. split; [exact netA_typed|]. repeat split; vm_compute; reflexivity. Qed.
Example C01_case_conv : typed netB [16] [1] /\ wf xB /\ shape xB = 1 :: [16] /\
  snd (vjp netB st0 xB None (tz [1; 1] [2]%Z) Input) =
  Ok (Some (tz [1; 16] [0; 96; (-14); 20; 86; 120; 122; 50; 40; 32; 66; 36; 16; 54; 126; 90]%Z)).
Proof. split; [exact netB_typed|]. repeat split; vm_compute; reflexivity. Qed.

Theorem C02_vjp_weight :
  forall (K : Type) (N : Num K) (CR : CRing K) (m : module K) (s s' : list nat) (b : nat) (x v : tensor K) (h h' : st K),
  typed m s s' -> 0 < b -> wf x -> shape x = b :: s -> wf v -> shape v = [b; numel s'] ->
  (n_params m <> 0 ->
     exists J, snd (jacobian m h x None Weight) = Ok (Some J) /\ wf J /\ shape J = [b; numel s'; n_params m] /\
       snd (vjp m h' x None v Weight) = Ok (Some (vJ b (numel s') (n_params m) (entry J) v))) /\
  (n_params m = 0 -> snd (vjp m h' x None v Weight) = Ok None).
Proof. exact (fun K N CR m s s' b x v h h' T B W S => vjp_weight m s s' b x T B W S h h' v). Qed.
Print Assumptions C02_vjp_weight.
Example C02_case : typed netA [2] [2] /\ n_params netA = 15 /\
  snd (vjp netA st0 xA None (tz [2; 2] [1; (-1); 2; 1]%Z) Weight) =
  Ok (Some (tz [2; 15] [4; 8; 0; 0; 4; 0; 6; 0; 1; 6; 0; 15; (-6); 0; (-15);
                        33; (-11); 18; (-6); 11; 6; 10; 40; 5; 4; 16; 30; 2; 8; 15]%Z)).
Proof. split; [exact netA_typed|]. repeat split; vm_compute; reflexivity. Qed.
Example C02_case_none : typed netP [2] [2] /\ n_params netP = 0 /\
  snd (vjp netP st0 xA None (tz [2; 2] [1; (-1); 2; 1]%Z) Weight) = Ok None.
Proof. split; [exact netP_typed|]. repeat split; vm_compute; reflexivity. Qed.

Theorem C03_mjp_input :
  forall (K : Type) (N : Num K) (CR : CRing K) (m : module K) (s s' : list nat) (b r : nat) (x M : tensor K) (h h' : st K),
  typed m s s' -> 0 < b -> wf x -> shape x = b :: s -> 0 < r -> wf M -> shape M = [b; r; numel s'] ->
  exists J, snd (jacobian m h x None Input) = Ok (Some J) /\ wf J /\ shape J = [b; numel s'; numel s] /\
    snd (mjp m h' x None (Some M) Input) = Ok (Some (MJ b r (numel s') (numel s) (entry J) M)).
Proof. exact (fun K N CR m s s' b r x M h h' T B W S => mjp_input m s s' b x T B W S h h' r M). Qed.
Print Assumptions C03_mjp_input.
Theorem C03_mjp_weight :
  forall (K : Type) (N : Num K) (CR : CRing K) (m : module K) (s s' : list nat) (b r : nat) (x M : tensor K) (h h' : st K),
  typed m s s' -> 0 < b -> wf x -> shape x = b :: s -> 0 < r -> wf M -> shape M = [b; r; numel s'] ->
  (n_params m <> 0 ->
     exists J, snd (jacobian m h x None Weight) = Ok (Some J) /\ wf J /\ shape J = [b; numel s'; n_params m] /\
       snd (mjp m h' x None (Some M) Weight) = Ok (Some (MJ b r (numel s') (n_params m) (entry J) M))) /\
  (n_params m = 0 -> snd (mjp m h' x None (Some M) Weight) = Ok None).
Proof. exact (fun K N CR m s s' b r x M h h' T B W S => mjp_weight m s s' b x T B W S h h' r M). Qed.
Print Assumptions C03_mjp_weight.
Example C03_case : typed netB [16] [1] /\ wf xB /\ shape xB = 1 :: [16] /\
  snd (mjp netB st0 xB None (Some (tz [1; 2; 1] [2; (-1)]%Z)) Input) =
  Ok (Some (tz [1; 2; 16] [0; 96; (-14); 20; 86; 120; 122; 50; 40; 32; 66; 36; 16; 54; 126; 90;
                           0; (-48); 7; (-10); (-43); (-60); (-61); (-25); (-20); (-16); (-33); (-18); (-8); (-27); (-63); (-45)]%Z)).
Proof. split; [exact netB_typed|]. repeat split; vm_compute; reflexivity. Qed.

(** val is absent or the network's output (it is recomputed anyway) *)
Theorem C04_jvp_input :
  forall (K : Type) (N : Num K) (CR : CRing K) (m : module K) (s s' : list nat) (b : nat) (x v : tensor K) (val : option (tensor K)) (h h' : st K),
  typed m s s' -> 0 < b -> wf x -> shape x = b :: s -> fwdable m -> val_ok m x val -> wf v -> shape v = [b; numel s] ->
  exists J, snd (jacobian m h x None Input) = Ok (Some J) /\ wf J /\ shape J = [b; numel s'; numel s] /\
    snd (jvp m h' x val v Input) = Ok (Some (Jv b (numel s') (numel s) (entry J) v)).
Proof. exact (fun K N CR m s s' b x v val h h' T B W S => jvp_input m s s' b x T B W S h h' val v). Qed.
Print Assumptions C04_jvp_input.
Theorem C04_jvp_weight :
  forall (K : Type) (N : Num K) (CR : CRing K) (m : module K) (s s' : list nat) (b : nat) (x v : tensor K) (val : option (tensor K)) (h h' : st K),
  typed m s s' -> 0 < b -> wf x -> shape x = b :: s -> fwdable m -> skips_param m -> val_ok m x val -> wf v -> shape v = [b; n_params m] ->
  (n_params m <> 0 ->
     exists J, snd (jacobian m h x None Weight) = Ok (Some J) /\ wf J /\ shape J = [b; numel s'; n_params m] /\
       snd (jvp m h' x val v Weight) = Ok (Some (Jv b (numel s') (n_params m) (entry J) v))) /\
  (n_params m = 0 -> snd (jvp m h' x val v Weight) = Ok None).
Proof. exact (fun K N CR m s s' b x v val h h' T B W S => jvp_weight m s s' b x T B W S h h' val v). Qed.
Print Assumptions C04_jvp_weight.
Example C04_case : typed netA [2] [2] /\ fwdable netA /\ skips_param netA /\ val_ok netA xA (Some (tz [2; 2] [36; 9; 32; 21]%Z)) /\
  snd (jvp netA st0 xA (Some (tz [2; 2] [36; 9; 32; 21]%Z)) (tz [2; 2] [1; (-1); 2; 1]%Z) Input) = Ok (Some (tz [2; 2] [(-5); (-1); 30; 14]%Z)).
Proof.
  split; [exact netA_typed|]. split; [exact netA_fwdable|]. split; [exact netA_skips|]. split; [|vm_compute; reflexivity].
  right. exists (tz [2; 2] [36; 9; 32; 21]%Z). split; [vm_compute; reflexivity|reflexivity].
Qed.

Theorem C05_jmp_input :
  forall (K : Type) (N : Num K) (CR : CRing K) (m : module K) (s s' : list nat) (b c : nat) (x M : tensor K) (val : option (tensor K)) (h h' : st K),
  typed m s s' -> 0 < b -> wf x -> shape x = b :: s -> fwdable m -> val_ok m x val -> 0 < c -> wf M -> shape M = [b; numel s; c] ->
  exists J, snd (jacobian m h x None Input) = Ok (Some J) /\ wf J /\ shape J = [b; numel s'; numel s] /\
    snd (jmp m h' x val (Some M) Input) = Ok (Some (JM b (numel s') (numel s) c (entry J) M)).
Proof. exact (fun K N CR m s s' b c x M val h h' T B W S => jmp_input m s s' b x T B W S h h' val c M). Qed.
Print Assumptions C05_jmp_input.
Theorem C05_jmp_weight :
  forall (K : Type) (N : Num K) (CR : CRing K) (m : module K) (s s' : list nat) (b c : nat) (x M : tensor K) (val : option (tensor K)) (h h' : st K),
  typed m s s' -> 0 < b -> wf x -> shape x = b :: s -> fwdable m -> skips_param m -> val_ok m x val -> 0 < c -> wf M -> shape M = [b; n_params m; c] ->
  (n_params m <> 0 ->
     exists J, snd (jacobian m h x None Weight) = Ok (Some J) /\ wf J /\ shape J = [b; numel s'; n_params m] /\
       snd (jmp m h' x val (Some M) Weight) = Ok (Some (JM b (numel s') (n_params m) c (entry J) M))) /\
  (n_params m = 0 -> snd (jmp m h' x val (Some M) Weight) = Ok None).
Proof. exact (fun K N CR m s s' b c x M val h h' T B W S => jmp_weight m s s' b x T B W S h h' val c M). Qed.
Print Assumptions C05_jmp_weight.
Example C05_case : typed netA [2] [2] /\ fwdable netA /\ skips_param netA /\
  snd (jmp netA st0 xA None (Some (tz [2; 2; 1] [1; (-1); 2; 1]%Z)) Input) = Ok (Some (tz [2; 2; 1] [(-5); (-1); 30; 14]%Z)).
Proof. split; [exact netA_typed|]. split; [exact netA_fwdable|]. split; [exact netA_skips|]. vm_compute; reflexivity. Qed.

Theorem C06_jTmjp_input :
  forall (K : Type) (N : Num K) (CR : CRing K) (m : module K) (s s' : list nat) (b : nat) (x M : tensor K) (from_diag to_diag : bool) (h h' : st K),
  typed m s s' -> 0 < b -> wf x -> shape x = b :: s -> all_sym m -> nonempty m ->
  wf M -> shape M = metric_shape from_diag b (numel s') ->
  exists J, snd (jacobian m h x None Input) = Ok (Some J) /\ wf J /\ shape J = [b; numel s'; numel s] /\
    snd (jTmjp m h' x None (VT M) Input from_diag to_diag false) =
    Ok (VT (present to_diag b (numel s) (pull_at (numel s') (entry J) (metric from_diag M)))).
Proof. exact (fun K N CR m s s' b x M fd td h h' T B W S => jTmjp_input m s s' b x T B W S h h' fd td M). Qed.
Print Assumptions C06_jTmjp_input.
Example C06_case : typed netA [2] [2] /\ all_sym netA /\ nonempty netA /\
  snd (jTmjp netA st0 xA None (VT (tz [2; 2] [1; 2; 1; 1]%Z)) Input true false false) = Ok (VT (tz [2; 2; 2] [27; 54; 54; 108; 170; 88; 88; 64]%Z)).
Proof. split; [exact netA_typed|]. split; [exact netA_sym|]. split; [exact netA_nonempty|]. vm_compute; reflexivity. Qed.

(** an empty Sequential returns the metric unchanged, whatever the flags say *)
Theorem C06_empty_refuted : exists (m : module Z) s (x M : tensor Z) h,
  typed m s s /\ wf x /\ shape x = 1 :: s /\ all_sym m /\ wf M /\ shape M = metric_shape true 1 (numel s) /\
  exists J, snd (jacobian m h x None Input) = Ok (Some J) /\
  snd (jTmjp m h x None (VT M) Input true false false) <>
  Ok (VT (present false 1 (numel s) (pull_at (numel s) (entry J) (metric true M)))).
Proof.
  exists (Seq true []), [2], (tz [1; 2] [1; 2]%Z), (tz [1; 2] [1; 1]%Z), st0.
  split; [apply ty_seq; apply tys_nil; vm_compute; auto|]. repeat (split; [solve [vm_compute; auto]|]).
  eexists. split; [vm_compute; reflexivity|]. vm_compute. discriminate.
Qed.
Print Assumptions C06_empty_refuted.

(** [wval] lays a parameter-by-parameter matrix out as the API's nested list of diagonal blocks (Domain.v) *)
Theorem C07_jTmjp_weight :
  forall (K : Type) (N : Num K) (CR : CRing K) (m : module K) (s s' : list nat) (b : nat) (x M : tensor K) (from_diag to_diag : bool) (h h' : st K),
  typed m s s' -> 0 < b -> wf x -> shape x = b :: s -> all_sym m -> nonempty m ->
  wf M -> shape M = metric_shape from_diag b (numel s') ->
  (n_params m <> 0 ->
     exists J, snd (jacobian m h x None Weight) = Ok (Some J) /\ wf J /\ shape J = [b; numel s'; n_params m] /\
       snd (jTmjp m h' x None (VT M) Weight from_diag to_diag false) =
       Ok (wval to_diag b (pull_at (numel s') (entry J) (metric from_diag M)) m 0)) /\
  (n_params m = 0 -> snd (jTmjp m h' x None (VT M) Weight from_diag to_diag false) = Ok VNone).
Proof. exact (fun K N CR m s s' b x M fd td h h' T B W S => jTmjp_weight m s s' b x T B W S h h' fd td M). Qed.
Print Assumptions C07_jTmjp_weight.
(** with to_diag the result is one tensor: the whole diagonal *)
Theorem C07_jTmjp_weight_diag :
  forall (K : Type) (N : Num K) (CR : CRing K) (m : module K) (s s' : list nat) (b : nat) (x M : tensor K) (from_diag : bool) (h h' : st K),
  typed m s s' -> 0 < b -> wf x -> shape x = b :: s -> all_sym m -> nonempty m -> n_params m <> 0 ->
  wf M -> shape M = metric_shape from_diag b (numel s') ->
  exists J, snd (jacobian m h x None Weight) = Ok (Some J) /\ wf J /\ shape J = [b; numel s'; n_params m] /\
    snd (jTmjp m h' x None (VT M) Weight from_diag true false) =
    Ok (VT (present true b (n_params m) (pull_at (numel s') (entry J) (metric from_diag M)))).
Proof. exact (fun K N CR m s s' b x M fd h h' T B W S => jTmjp_weight_diag m s s' b x T B W S h h' fd M). Qed.
Print Assumptions C07_jTmjp_weight_diag.
Example C07_case : typed netA [2] [2] /\ all_sym netA /\ nonempty netA /\ n_params netA = 15 /\
  snd (jTmjp netA st0 xA None (VT (tz [2; 2] [1; 2; 1; 1]%Z)) Weight true true false) =
  Ok (VT (tz [2; 15] [27; 108; 0; 0; 27; 0; 216; 0; 6; 36; 0; 225; 72; 0; 450;
                      234; 26; 72; 8; 26; 8; 20; 320; 5; 4; 64; 225; 4; 64; 225]%Z)).
Proof.
  split; [exact netA_typed|]. split; [exact netA_sym|]. split; [exact netA_nonempty|]. split; [reflexivity|]. vm_compute; reflexivity.
Qed.
(** three blocks, the second nested inside the SkipConnection's Sequential *)
Example C07_case_blocks : exists A B C,
  snd (jTmjp netA st0 xA None (VT (tz [2; 2] [1; 2; 1; 1]%Z)) Weight true false false) = Ok (VL [VT A; VL [VT B]; VL [VT C]]) /\
  shape A = [2; 6; 6] /\ shape B = [2; 3; 3] /\ shape C = [2; 6; 6].
Proof. do 3 eexists. split; [vm_compute; reflexivity|]. repeat split. Qed.

Theorem C08_jmjTp_input :
  forall (K : Type) (N : Num K) (CR : CRing K) (m : module K) (s s' : list nat) (b : nat) (x M : tensor K) (from_diag to_diag : bool) (h h' : st K),
  typed m s s' -> 0 < b -> wf x -> shape x = b :: s -> fwdable m -> nonempty m ->
  wf M -> shape M = metric_shape from_diag b (numel s) ->
  exists J, snd (jacobian m h x None Input) = Ok (Some J) /\ wf J /\ shape J = [b; numel s'; numel s] /\
    snd (jmjTp m h' x None (VT M) Input from_diag to_diag false) =
    Ok (VT (present to_diag b (numel s') (push_at (numel s) (entry J) (metric from_diag M)))).
Proof. exact (fun K N CR m s s' b x M fd td h h' T B W S => jmjTp_input m s s' b x T B W S h h' fd td M). Qed.
Print Assumptions C08_jmjTp_input.
Example C08_case : typed netA [2] [2] /\ fwdable netA /\ nonempty netA /\
  snd (jmjTp netA st0 xA None (VT (tz [2; 2; 2] [1; 2; 2; 1; 1; 0; 0; 3]%Z)) Input false false false) =
  Ok (VT (tz [2; 2; 2] [325; 65; 65; 13; 313; 77; 77; 49]%Z)).
Proof. split; [exact netA_typed|]. split; [exact netA_fwdable|]. split; [exact netA_nonempty|]. vm_compute; reflexivity. Qed.

(** [same_layer (leaf_at m)] keeps the entries of a parameter metric whose two parameters belong to the same layer *)
Theorem C09_jmjTp_weight :
  forall (K : Type) (N : Num K) (CR : CRing K) (m : module K) (s s' : list nat) (b : nat) (x M : tensor K) (from_diag to_diag : bool) (h h' : st K),
  typed m s s' -> 0 < b -> wf x -> shape x = b :: s -> fwdable m -> nonempty m -> n_params m <> 0 ->
  wf M -> shape M = metric_shape from_diag b (n_params m) ->
  exists J, snd (jacobian m h x None Weight) = Ok (Some J) /\ wf J /\ shape J = [b; numel s'; n_params m] /\
    snd (jmjTp m h' x None (VT M) Weight from_diag to_diag false) =
    Ok (VT (present to_diag b (numel s') (push_at (n_params m) (entry J) (same_layer (leaf_at m) (metric from_diag M))))).
Proof. exact (fun K N CR m s s' b x M fd td h h' T B W S => jmjTp_weight m s s' b x T B W S h h' fd td M). Qed.
Print Assumptions C09_jmjTp_weight.
(** the metric R given as a tensor, as the list of blocks, or as nested lists ([rep] in Domain.v) *)
Theorem C09_jmjTp_weight_blocks :
  forall (K : Type) (N : Num K) (CR : CRing K) (m : module K) (s s' : list nat) (b : nat) (x : tensor K)
    (R : nat -> nat -> nat -> K) (v : value K) (from_diag to_diag : bool) (h h' : st K),
  typed m s s' -> 0 < b -> wf x -> shape x = b :: s -> fwdable m -> nonempty m -> n_params m <> 0 ->
  rep from_diag b R m 0 v ->
  exists J, snd (jacobian m h x None Weight) = Ok (Some J) /\ wf J /\ shape J = [b; numel s'; n_params m] /\
    snd (jmjTp m h' x None v Weight from_diag to_diag false) =
    Ok (VT (present to_diag b (numel s') (push_at (n_params m) (entry J) (same_layer (leaf_at m) (dpart from_diag R))))).
Proof. exact (fun K N CR m s s' b x R v fd td h h' T B W S => jmjTp_weight_rep m s s' b x T B W S h h' fd td R v). Qed.
Print Assumptions C09_jmjTp_weight_blocks.
Example C09_case : typed netA [2] [2] /\ fwdable netA /\ nonempty netA /\ n_params netA = 15 /\
  snd (jmjTp netA st0 xA None (VT (mkT [2; 15] (repeat 1%Z 30))) Weight true false false) =
  Ok (VT (tz [2; 2; 2] [559; 104; 104; 304; 888; 237; 237; 417]%Z)).
Proof. split; [exact netA_typed|]. split; [exact netA_fwdable|]. split; [exact netA_nonempty|]. split; [reflexivity|]. vm_compute; reflexivity. Qed.
(** the nested list of blocks that jTmjp returns is one of these representations *)
Theorem C09_blocks_of_jTmjp :
  forall (K : Type) (N : Num K) (CR : CRing K) (m : module K) (diag : bool) (b : nat) (R : nat -> nat -> nat -> K),
  n_params m <> 0 -> rep diag b R m 0 (wval diag b R m 0).
Proof. exact (fun K N CR m diag b R => wval_rep diag b R m 0). Qed.
Print Assumptions C09_blocks_of_jTmjp.
Example C09_case_blocks : exists v R, snd (jTmjp netA st0 xA None (VT (tz [2; 2] [1; 2; 1; 1]%Z)) Weight true false false) = Ok v /\
  rep false 2 R netA 0 v /\ exists t, snd (jmjTp netA st0 xA None v Weight false false false) = Ok (VT t) /\ shape t = [2; 2; 2].
Proof.
  destruct (C07_jTmjp_weight Z _ _ netA [2] [2] 2 xA (tz [2; 2] [1; 2; 1; 1]%Z) true false st0 st0 netA_typed ltac:(auto) xA_wf eq_refl
    netA_sym netA_nonempty eq_refl eq_refl) as [E _]. destruct E as (J & E1 & _ & _ & E2); [vm_compute; discriminate|].
  do 2 eexists. split; [exact E2|]. split; [apply (C09_blocks_of_jTmjp Z _ _); vm_compute; discriminate|].
  vm_compute in E1. injection E1 as <-. eexists. split; [vm_compute; reflexivity|reflexivity].
Qed.
