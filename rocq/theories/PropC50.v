(** C50: forward products that a layer does not implement fail loudly.  C51: MaxPool2d.jmp. *)
From Coq Require Import List Arith ZArith Bool Lia.
From Verif Require Import Scalar Tensor Abstract Simple LinearLayer ConvLayer PoolLayer Module Spec SpecQ Domain LoudSpec Loud PoolExact PoolJmp Examples LayerWitness.
Import ListNotations.
Local Open Scope nat_scope.
Local Open Scope list_scope.

(** C50.  [p] is any layer or container at any depth of m; no assumption on sizes, state, input or arguments *)
Theorem C50_jvp_input : forall (K : Type) (N : Num K) (m p : module K), occurs p m -> is_conv p \/ is_upsample p \/ is_pool p ->
  forall h (x v : tensor K) val, raises (jvp m h x val v Input).
Proof. exact (fun K N m p O P h x v val => loud_jvp_input p m O P h x val v). Qed.
Print Assumptions C50_jvp_input.
Theorem C50_jvp_weight : forall (K : Type) (N : Num K) (m p : module K), occurs p m -> is_conv p ->
  forall h (x v : tensor K) val, raises (jvp m h x val v Weight).
Proof. exact (fun K N m p O P h x v val => loud_jvp_weight p m O P h x val v). Qed.
Print Assumptions C50_jvp_weight.
(** user-defined layers must return a jacobian with respect to the input *)
Theorem C50_jmp_input : forall (K : Type) (N : Num K) (m p : module K), occurs p m -> is_conv p \/ is_upsample p ->
  (forall c, occurs (Leaf (Custom c)) m -> forall x val, cu_jacobian c x val Input <> Ok None) ->
  forall h (x M : tensor K) val, raises (jmp m h x val (Some M) Input).
Proof. exact (fun K N m p O P C h x M val => loud_jmp_input p m C O P h x val M). Qed.
Print Assumptions C50_jmp_input.
Theorem C50_jmp_weight : forall (K : Type) (N : Num K) (m p : module K), occurs p m -> is_conv p ->
  forall h (x M : tensor K) val, raises (jmp m h x val (Some M) Weight).
Proof. exact (fun K N m p O P h x M val => loud_jmp_weight p m O P h x val M). Qed.
Print Assumptions C50_jmp_weight.
Theorem C50_jmjTp_input : forall (K : Type) (N : Num K) (m p : module K), occurs p m -> is_conv p \/ is_upsample p \/ is_pool p ->
  forall h (x : tensor K) val M from_diag to_diag diag_backprop, raises (jmjTp m h x val M Input from_diag to_diag diag_backprop).
Proof. exact (fun K N m p O P h x val M => loud_jmjTp_input p m O P h x val M). Qed.
Print Assumptions C50_jmjTp_input.
Theorem C50_jmjTp_weight : forall (K : Type) (N : Num K) (m p : module K), occurs p m -> is_conv p -> n_params p <> 0 ->
  forall h (x : tensor K) val M from_diag to_diag diag_backprop, raises (jmjTp m h x val M Weight from_diag to_diag diag_backprop).
Proof. exact (fun K N m p O P Np h x val M => loud_jmjTp_weight p m O P Np h x val M). Qed.
Print Assumptions C50_jmjTp_weight.
(** on a well-shaped input the exception is NotImplementedError *)
Theorem C50_jvp_exception : forall (K : Type) (N : Num K) (CR : CRing K) (m p : module K) s s' b (x v : tensor K) val h,
  typed m s s' -> 0 < b -> wf x -> shape x = b :: s -> val_ok m x val -> wf v -> shape v = [b; numel s] ->
  occurs p m -> is_conv p \/ is_upsample p \/ is_pool p -> snd (jvp m h x val v Input) = Raise NotImplementedError.
Proof.
  exact (fun K N CR m p s s' b x v val h Ty Hb Wx Sx V Wv Sv O P => proj1 jvp_not_implemented m s s' Ty
    (fun F => proj1 (fwdable_occurs m) F p O P) b h x val v Hb Wx Sx V Wv Sv).
Qed.
Print Assumptions C50_jvp_exception.
(** a SkipConnection without parameters: the weight-wise forward products of every network that contains one raise *)
Theorem C50_skip : forall (K : Type) (N : Num K) (CR : CRing K) (m F : module K) s s' b (x v : tensor K) val h,
  typed m s s' -> 0 < b -> wf x -> shape x = b :: s -> val_ok m x val -> occurs (Skip F) m -> n_params F = 0 ->
  raises (jvp m h x val v Weight) /\ raises (jmp m h x val (Some v) Weight).
Proof.
  exact (fun K N CR m F s s' b x v val h Ty Hb Wx Sx V O Np =>
    conj (raises_not _ (fun t => proj1 (jvp_skip_raises F Np) m s s' Ty O b h x val v t Hb Wx Sx V))
         (raises_not _ (fun t => proj1 (jmp_skip_raises F Np) m s s' Ty O b h x val v t Hb Wx Sx V))).
Qed.
Print Assumptions C50_skip.
(** so the hypotheses of C04 and C05 cannot be weakened: they say that nothing of the above occurs *)
Theorem C50_domain : forall (K : Type) (N : Num K) (CR : CRing K) (m : module K),
  (fwdable m <-> forall p, occurs p m -> ~ (is_conv p \/ is_upsample p \/ is_pool p)) /\
  (skips_param m <-> forall F, occurs (Skip F) m -> n_params F <> 0).
Proof. exact (fun K N CR m => conj (fwdable_occurs m) (skips_occurs m)). Qed.
Print Assumptions C50_domain.
Example C50_case : typed netB [16] [1] /\ wf xB /\ shape xB = 1 :: [16] /\
  (exists p, occurs p netB /\ is_conv p /\ n_params p <> 0) /\ (exists p, occurs p netB /\ is_upsample p) /\ (exists p, occurs p netB /\ is_pool p) /\
  (forall c, ~ occurs (Leaf (Custom c)) netB) /\
  snd (jvp netB st0 xB None (tz [1; 16] (repeat 1%Z 16)) Input) = Raise NotImplementedError.
Proof.
  split; [exact netB_typed|]. split; [reflexivity|]. split; [reflexivity|].
  split; [|split; [|split; [|split]]].
  - exists (Leaf (Conv2d cfgB WB (Some (tz [2] [1; (-1)]%Z)))). split; [|split; [exact I|discriminate]].
    eapply oc_seq; [|apply oc_here]. cbn. tauto.
  - exists (Leaf (Upsample 2 1)). split; [|exact I]. eapply oc_seq; [|apply oc_here]. cbn. tauto.
  - exists (MaxPool poolB). split; [|exact I]. eapply oc_seq; [|apply oc_here]. cbn. tauto.
  - intros c O. inversion O as [|h ms m I O'|]; subst. cbn in I. repeat (destruct I as [<-|I]; [inversion O'|]). exact I.
  - vm_compute. reflexivity.
Qed.
Definition netW : module Z := Seq true [Leaf (Linear (tz [2; 2] [1; 2; 3; (-1)]%Z) None); Skip (Seq true [Leaf (Act ReLU)])].
Example C50_case_skip : typed netW [2] [4] /\ n_params netW = 4 /\ occurs (Skip (Seq true [Leaf (Act ReLU)])) netW /\
  n_params (Seq true [Leaf (@Act Z ReLU)]) = 0 /\
  (exists J, snd (jacobian netW st0 xA None Weight) = Ok (Some J) /\ shape J = [2; 4; 4]) /\
  snd (jvp netW st0 xA None (tz [2; 4] [1; 2; 3; 4; 5; 6; 7; 8]%Z) Weight) = Raise TypeError.
Proof.
  split.
  - apply ty_seq. eapply tys_cons; [|eapply tys_cons; [|apply tys_nil]].
    + apply ty_leaf with (s' := [2]). leaf_dom; vm_compute; lia.
    + apply (ty_skip _ 2 2 []). eapply tys_cons; [|apply tys_nil; vm_compute; lia]. apply ty_leaf. leaf_dom; vm_compute; lia.
    + vm_compute; lia.
  - split; [reflexivity|]. split; [eapply oc_seq; [|apply oc_here]; cbn; tauto|]. split; [reflexivity|]. split; [|vm_compute; reflexivity].
    eexists. split; [vm_compute; reflexivity|]. reflexivity.
Qed.

(** C51, full claim: MaxPool2d.jmp(x, None, M) is jacobian times M for every number of columns.  It is when M has as many columns as
    the input has entries; every other number of columns raises. *)
Theorem C51_pool_jmp_partial : forall (K : Type) (N : Num K) (CR : CRing K) cfg s s' b (x : tensor K),
  pool_sized cfg s s' -> 0 < b -> wf x -> shape x = b :: s ->
  exists J : tensor K, wf J /\ shape J = [b; numel s'; numel s] /\
    (forall h, snd (jacobian (MaxPool cfg) h x None Input) = Ok (Some J)) /\
    (forall h M, wf M -> shape M = [b; numel s; numel s] ->
       snd (jmp (MaxPool cfg) h x None (Some M) Input) = Ok (Some (JM b (numel s') (numel s) (numel s) (entry J) M))) /\
    (forall h M k, shape M = [b; numel s; k] -> k <> numel s ->
       snd (jmp (MaxPool cfg) h x None (Some M) Input) = Raise RuntimeError) /\
    (forall h M, snd (jmp (MaxPool cfg) h x None (Some M) Weight) = Ok None).
Proof. exact (fun K N CR cfg s s' b x => pool_jmp_any cfg s s' b x). Qed.
Print Assumptions C51_pool_jmp_partial.
(** a matrix with another number of rows than the input has entries, or of another batch size, is rejected *)
Theorem C51_rows : forall (K : Type) (N : Num K) (CR : CRing K) cfg s s' b (x : tensor K),
  pool_sized cfg s s' -> 0 < b -> wf x -> shape x = b :: s ->
  forall h (M : tensor K) b' r k, shape M = [b'; r; k] -> b' <> b \/ r <> numel s ->
  snd (jmp (MaxPool cfg) h x None (Some M) Input) = Raise AssertionError.
Proof. exact (fun K N CR cfg s s' b x => pool_jmp_rows cfg s s' b x). Qed.
Print Assumptions C51_rows.
Example C51_case : pool_sized poolO [1; 1; 3] [1; 1; 2] /\
  snd (jmp (MaxPool poolO) st0 xO None (Some (tz [1; 3; 3] [1; 2; 3; 4; 5; 6; 7; 8; 9]%Z)) Input) = Ok (Some (tz [1; 2; 3] [4; 5; 6; 4; 5; 6]%Z)).
Proof. split; [exact poolO_sized|]. vm_compute. reflexivity. Qed.
Theorem C51_refuted : exists cfg s s' (x M : tensor Z), pool_sized cfg s s' /\ wf x /\ shape x = 1 :: s /\ wf M /\ shape M = [1; numel s; 1] /\
  snd (jmp (MaxPool cfg) st0 x None (Some M) Input) = Raise RuntimeError.
Proof. exists poolO, [1; 1; 3], [1; 1; 2], xO, (tz [1; 3; 1] [1; 2; 3]%Z). split; [exact poolO_sized|]. repeat split; vm_compute; reflexivity. Qed.
Print Assumptions C51_refuted.
