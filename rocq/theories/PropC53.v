(** C53: what a forward product returns is the product, in every network, whatever layers occur in it. *)
From Coq Require Import List Arith ZArith Bool Lia.
From Verif Require Import Scalar Tensor Abstract Simple LinearLayer ConvLayer PoolLayer Module Spec SpecQ Domain LoudSpec PoolExact Sound Examples.
Import ListNotations.
Local Open Scope nat_scope.
Local Open Scope list_scope.

(** C53.  No assumption that the layers support the product (compare C04, C05, C08 and C09) *)
Theorem C53_jvp_input :
  forall (K : Type) (N : Num K) (CR : CRing K) (m : module K) (s s' : list nat) (b : nat) (x v : tensor K) (val r : option (tensor K)) (h h' : st K),
  typed m s s' -> 0 < b -> wf x -> shape x = b :: s -> val_ok m x val -> wf v -> shape v = [b; numel s] ->
  snd (jvp m h' x val v Input) = Ok r ->
  exists J, snd (jacobian m h x None Input) = Ok (Some J) /\ wf J /\ shape J = [b; numel s'; numel s] /\
    r = Some (Jv b (numel s') (numel s) (entry J) v).
Proof. exact (fun K N CR m s s' b x v val r h h' T B W S => snd_jvp_input m s s' b x T B W S h h' val v r). Qed.
Print Assumptions C53_jvp_input.
Theorem C53_jvp_weight :
  forall (K : Type) (N : Num K) (CR : CRing K) (m : module K) (s s' : list nat) (b : nat) (x v : tensor K) (val r : option (tensor K)) (h h' : st K),
  typed m s s' -> 0 < b -> wf x -> shape x = b :: s -> val_ok m x val -> wf v -> shape v = [b; n_params m] ->
  snd (jvp m h' x val v Weight) = Ok r ->
  (n_params m <> 0 ->
     exists J, snd (jacobian m h x None Weight) = Ok (Some J) /\ wf J /\ shape J = [b; numel s'; n_params m] /\
       r = Some (Jv b (numel s') (n_params m) (entry J) v)) /\
  (n_params m = 0 -> r = None).
Proof. exact (fun K N CR m s s' b x v val r h h' T B W S => snd_jvp_weight m s s' b x T B W S h h' val v r). Qed.
Print Assumptions C53_jvp_weight.
(** val omitted, or val given to a network that has just computed it (a MaxPool2d layer remembers where its maxima were) *)
Theorem C53_jmp_input :
  forall (K : Type) (N : Num K) (CR : CRing K) (m : module K) (s s' : list nat) (b c : nat) (x M : tensor K) (r : option (tensor K)) (h h' : st K),
  typed m s s' -> 0 < b -> wf x -> shape x = b :: s -> 0 < c -> wf M -> shape M = [b; numel s; c] ->
  snd (jmp m h' x None (Some M) Input) = Ok r \/
  (exists h0 y, fwd m x = Ok y /\ h' = fst (forward m h0 x) /\ snd (jmp m h' x (Some y) (Some M) Input) = Ok r) ->
  exists J, snd (jacobian m h x None Input) = Ok (Some J) /\ wf J /\ shape J = [b; numel s'; numel s] /\
    r = Some (JM b (numel s') (numel s) c (entry J) M).
Proof. exact (fun K N CR m s s' b c x M r h h' T B W S => snd_jmp_input m s s' b x T B W S h h' c M r). Qed.
Print Assumptions C53_jmp_input.
Theorem C53_jmp_weight :
  forall (K : Type) (N : Num K) (CR : CRing K) (m : module K) (s s' : list nat) (b c : nat) (x M : tensor K) (val r : option (tensor K)) (h h' : st K),
  typed m s s' -> 0 < b -> wf x -> shape x = b :: s -> val_ok m x val -> 0 < c -> wf M -> shape M = [b; n_params m; c] ->
  snd (jmp m h' x val (Some M) Weight) = Ok r ->
  (n_params m <> 0 ->
     exists J, snd (jacobian m h x None Weight) = Ok (Some J) /\ wf J /\ shape J = [b; numel s'; n_params m] /\
       r = Some (JM b (numel s') (n_params m) c (entry J) M)) /\
  (n_params m = 0 -> r = None).
Proof. exact (fun K N CR m s s' b c x M val r h h' T B W S => snd_jmp_weight m s s' b x T B W S h h' val c M r). Qed.
Print Assumptions C53_jmp_weight.
Theorem C53_jmjTp_input :
  forall (K : Type) (N : Num K) (CR : CRing K) (m : module K) (s s' : list nat) (b : nat) (x M : tensor K) (from_diag to_diag : bool) (r : value K) (h h' : st K),
  typed m s s' -> 0 < b -> wf x -> shape x = b :: s -> nonempty m -> wf M -> shape M = metric_shape from_diag b (numel s) ->
  snd (jmjTp m h' x None (VT M) Input from_diag to_diag false) = Ok r ->
  exists J, snd (jacobian m h x None Input) = Ok (Some J) /\ wf J /\ shape J = [b; numel s'; numel s] /\
    r = VT (present to_diag b (numel s') (push_at (numel s) (entry J) (metric from_diag M))).
Proof. exact (fun K N CR m s s' b x M fd td r h h' T B W S => snd_jmjTp_input m s s' b x T B W S h h' fd td M r). Qed.
Print Assumptions C53_jmjTp_input.
Theorem C53_jmjTp_weight :
  forall (K : Type) (N : Num K) (CR : CRing K) (m : module K) (s s' : list nat) (b : nat) (x M : tensor K) (from_diag to_diag : bool) (r : value K) (h h' : st K),
  typed m s s' -> 0 < b -> wf x -> shape x = b :: s -> nonempty m -> n_params m <> 0 ->
  wf M -> shape M = metric_shape from_diag b (n_params m) ->
  snd (jmjTp m h' x None (VT M) Weight from_diag to_diag false) = Ok r ->
  exists J, snd (jacobian m h x None Weight) = Ok (Some J) /\ wf J /\ shape J = [b; numel s'; n_params m] /\
    r = VT (present to_diag b (numel s') (push_at (n_params m) (entry J) (same_layer (leaf_at m) (metric from_diag M)))).
Proof. exact (fun K N CR m s s' b x M fd td r h h' T B W S => snd_jmjTp_weight m s s' b x T B W S h h' fd td M r). Qed.
Print Assumptions C53_jmjTp_weight.
Theorem C53_jmjTp_weight_blocks :
  forall (K : Type) (N : Num K) (CR : CRing K) (m : module K) (s s' : list nat) (b : nat) (x : tensor K)
    (R : nat -> nat -> nat -> K) (v : value K) (from_diag to_diag : bool) (r : value K) (h h' : st K),
  typed m s s' -> 0 < b -> wf x -> shape x = b :: s -> nonempty m -> n_params m <> 0 -> rep from_diag b R m 0 v ->
  snd (jmjTp m h' x None v Weight from_diag to_diag false) = Ok r ->
  exists J, snd (jacobian m h x None Weight) = Ok (Some J) /\ wf J /\ shape J = [b; numel s'; n_params m] /\
    r = VT (present to_diag b (numel s') (push_at (n_params m) (entry J) (same_layer (leaf_at m) (dpart from_diag R)))).
Proof. exact (fun K N CR m s s' b x R v fd td r h h' T B W S => snd_jmjTp_weight_rep m s s' b x T B W S h h' fd td R v r). Qed.
Print Assumptions C53_jmjTp_weight_blocks.

(** Reshape(2,2,2) - Upsample(2) - MaxPool2d(2) - Flatten - Linear(8,2) - ReLU: C04, C05 and C09 do not apply *)
Definition netU : module Z := Seq true [
  Leaf (Reshape [2; 2; 2]%Z); Leaf (Upsample 2 1); MaxPool poolB; Leaf Flatten;
  Leaf (Linear (tz [2; 8] [1; 2; 3; 4; 5; 6; 7; 8; (-1); 0; 1; 2; (-2); 1; 0; 3]%Z) (Some (tz [2] [1; (-1)]%Z))); Leaf (Act ReLU)].
Definition xU : tensor Z := tz [1; 8] [3; 1; 4; 1; (-5); 9; 2; 6]%Z.
Lemma netU_typed : typed netU [8] [2].
Proof.
  apply ty_seq. eapply tys_cons; [|eapply tys_cons; [|eapply tys_cons; [|eapply tys_cons; [|eapply tys_cons; [|eapply tys_cons; [|apply tys_nil]]]]]].
  - apply ty_leaf with (s' := [2; 2; 2]). leaf_dom; vm_compute; try lia.
  - apply ty_leaf with (s' := [2; 4; 4]). leaf_dom; vm_compute; try lia.
  - apply ty_pool. apply poolB_typed.
  - apply ty_leaf with (s' := [8]). leaf_dom; vm_compute; try lia.
  - apply ty_leaf with (s' := [2]). leaf_dom; vm_compute; lia.
  - apply ty_leaf. leaf_dom; vm_compute; lia.
  - vm_compute; lia.
Qed.
Example C53_case : typed netU [8] [2] /\ wf xU /\ shape xU = 1 :: [8] /\ nonempty netU /\ ~ fwdable netU /\ n_params netU = 18 /\
  snd (jvp netU st0 xU None (tz [1; 18] [1; 1; 1; 1; 1; 1; 1; 1; 2; 2; 2; 2; 2; 2; 2; 2; 5; 7]%Z) Weight) = Ok (Some (tz [1; 2] [26; 49]%Z)) /\
  snd (jmp netU st0 xU None (Some (tz [1; 18; 1] [1; 1; 1; 1; 1; 1; 1; 1; 2; 2; 2; 2; 2; 2; 2; 2; 5; 7]%Z)) Weight) = Ok (Some (tz [1; 2; 1] [26; 49]%Z)) /\
  snd (jmjTp netU st0 xU None (VT (tz [1; 18] (repeat 1%Z 18))) Weight true true false) = Ok (VT (tz [1; 2] [174; 174]%Z)).
Proof.
  split; [exact netU_typed|]. split; [reflexivity|]. split; [reflexivity|]. split; [cbn; repeat split; discriminate|]. split; [cbn; tauto|].
  repeat split; vm_compute; reflexivity.
Qed.
(** Reshape(2,4,4) - MaxPool2d(2) - Flatten - Linear(8,1), on a matrix with 32 columns *)
Definition netM : module Z := Seq true [
  Leaf (Reshape [2; 4; 4]%Z); MaxPool poolB; Leaf Flatten; Leaf (Linear (tz [1; 8] [1; 2; 3; 4; 5; 6; 7; 8]%Z) None)].
Definition xM : tensor Z := mkT [1; 32] (map (fun k => ((Z.of_nat k * 7) mod 11)%Z) (seq 0 32)).
Example C53_case_pool : typed netM [32] [1] /\ ~ fwdable netM /\
  exists r, snd (jmp netM st0 xM None (Some (mkT [1; 32; 32] (map Z.of_nat (seq 0 1024)))) Input) = Ok (Some r) /\ shape r = [1; 1; 32].
Proof.
  split.
  - apply ty_seq. eapply tys_cons; [|eapply tys_cons; [|eapply tys_cons; [|eapply tys_cons; [|apply tys_nil]]]].
    + apply ty_leaf with (s' := [2; 4; 4]). leaf_dom; vm_compute; try lia.
    + apply ty_pool. apply poolB_typed.
    + apply ty_leaf with (s' := [8]). leaf_dom; vm_compute; try lia.
    + apply ty_leaf with (s' := [1]). leaf_dom; vm_compute; lia.
    + vm_compute; lia.
  - split; [cbn; tauto|]. eexists. split; [vm_compute; reflexivity|]. reflexivity.
Qed.
