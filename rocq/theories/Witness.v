(** Witnesses for the refuted properties: concrete networks on which the code does not do what the property says. *)
From Coq Require Import List Arith ZArith Bool Lia.
From Verif Require Import Scalar Sums Tensor Conv Abstract Simple LinearLayer ConvLayer PoolLayer Module Spec SpecQ Domain Calls ValArg Frozen History Examples.
Import ListNotations.
Local Open Scope nat_scope.
Local Open Scope list_scope.

Lemma jvp_spoils_val : exists (m : module Z) s s' b (x x' y v : tensor Z) t t',
  typed m s s' /\ 0 < b /\ wf x /\ shape x = b :: s /\ wf x' /\ shape x' = b :: s /\ fwd m x = Ok y /\
  answer m (init m) (Vjp x None v Input) = Ok (VT t) /\
  answer m (run m (init m) [Forward x; Jvp x' None v Input]) (Vjp x (Some y) v Input) = Ok (VT t') /\ t <> t'.
Proof.
  exists netN, [1], [1], 1, (tz [1; 1] [1]%Z), (tz [1; 1] [(-1)]%Z), (tz [1; 1] [1]%Z), (tz [1; 1] [1]%Z), (tz [1; 1] [1]%Z), (tz [1; 1] [0]%Z).
  repeat split; try (apply netN_typed); try lia; try (vm_compute; reflexivity). discriminate.
Qed.
Definition netM : module Z := Seq true [MaxPool poolB].
Lemma netM_typed : typed netM [2; 4; 4] [2; 2; 2].
Proof. apply ty_seq. eapply tys_cons; [|apply tys_nil; vm_compute; lia]. apply ty_pool. exact poolB_typed. Qed.
Lemma pool_spoils_val : exists (m : module Z) s s' b (x x' y v v' : tensor Z) t t',
  typed m s s' /\ 0 < b /\ wf x /\ shape x = b :: s /\ wf x' /\ shape x' = b :: s /\ fwd m x = Ok y /\
  answer m (init m) (Vjp x None v Input) = Ok (VT t) /\
  answer m (run m (init m) [Forward x]) (Jvp x' None v' Input) = Raise NotImplementedError /\
  answer m (run m (init m) [Forward x; Jvp x' None v' Input]) (Vjp x (Some y) v Input) = Ok (VT t') /\ t <> t'.
Proof.
  exists netM, [2; 4; 4], [2; 2; 2], 1, (mkT [1; 2; 4; 4] (map (fun k => ((Z.of_nat k * 7) mod 11)%Z) (seq 0 32))), (mkT [1; 2; 4; 4] (map (fun k => ((Z.of_nat k * 5) mod 13)%Z) (seq 0 32))).
  eexists. exists (mkT [1; 8] (repeat 1%Z 8)), (mkT [1; 32] (repeat 1%Z 32)). do 2 eexists.
  repeat split; try (apply netM_typed); try lia. all: try (vm_compute; reflexivity). vm_compute. discriminate.
Qed.
Lemma skip_jacobian_val : exists (m : module Z) s s' b (x y t t' u : tensor Z),
  typed m s s' /\ 0 < b /\ wf x /\ shape x = b :: s /\ fwd m x = Ok y /\
  answer m (run m (init m) [Forward x]) (Jacobian x None Input) = Ok (VT t) /\
  answer m (run m (init m) [Forward x]) (Jacobian x (Some y) Input) = Ok (VT t') /\ shape t <> shape t' /\
  answer m (run m (init m) [Forward x]) (Jacobian x None Weight) = Ok (VT u) /\
  answer m (run m (init m) [Forward x]) (Jacobian x (Some y) Weight) = Raise RuntimeError /\
  answer m (run m (init m) [Forward x]) (Mjp x (Some y) None Weight) = Raise RuntimeError /\
  answer m (run m (init m) [Forward x]) (Jmp x (Some y) None Weight) = Raise RuntimeError.
Proof.
  exists netS, [2], [3], 2, xA. do 4 eexists. repeat split; try (apply netS_typed); try lia; try (vm_compute; reflexivity). vm_compute. discriminate.
Qed.
Lemma jvp_grows_forever : exists (m : module Z) (x v : tensor Z), typed m [1] [1] /\
  forall n, stored (run m (init m) (repeat (Jvp x None v Input) n)) = n.
Proof.
  exists (Seq true [Leaf (Act ReLU)]), (tz [1; 1] [1]%Z), (tz [1; 1] [1]%Z). split.
  - exact reluZ_typed.
  - enough (H : forall n fm, run (Seq true [Leaf (Act ReLU)]) (St fm None [st0]) (repeat (Jvp (tz [1; 1] [1]%Z) None (tz [1; 1] [1]%Z) Input) n) =
      St (fm ++ repeat (tz [1; 1] [1]%Z) n) None [st0]).
    { intros n. change (init _) with (St (@nil (tensor Z)) None [st0]). rewrite H. cbn [stored]. cbn [app stored st0]. rewrite repeat_length. cbn. lia. }
    assert (Step : forall fm, fst (perform (Seq true [Leaf (Act ReLU)]) (St fm None [st0]) (Jvp (tz [1; 1] [1]%Z) None (tz [1; 1] [1]%Z) Input)) = St (fm ++ [tz [1; 1] [1]%Z]) None [st0]).
    { intros fm. reflexivity. }
    unfold run. induction n as [|n IH]; intros fm; [cbn; now rewrite app_nil_r|]. cbn [repeat fold_left]. rewrite Step, IH, <- app_assoc. reflexivity.
Qed.

(** *** C15: matrix=None *)
Definition x4 : tensor Z := tz [2; 1; 2; 2] [1; 2; 3; 4; 5; 6; 7; 8]%Z.
Definition cfg1 : conv_cfg := Build_conv_cfg (1, 1) (0, 0) (1, 1) 1 PZeros false.
Definition netC : module Z := Leaf (Conv2d cfg1 (tz [1; 1; 1; 1] [2]%Z) None).
Definition netK : module Z := Skip (Seq true [netC]).
Definition net4 : module Z := Seq true [Leaf Flatten; Leaf (Act ReLU)].
Definition netW : module Z := Skip (Seq true [Leaf (Act ReLU)]).
Lemma none_flatten : exists (m : module Z) s s' b (x t : tensor Z),
  typed m s s' /\ 0 < b /\ wf x /\ shape x = b :: s /\
  answer m (init m) (Jacobian x None Input) = Ok (VT t) /\
  answer m (init m) (Mjp x None (Some (identity_metric false b (numel s'))) Input) = Ok (VT t) /\
  answer m (init m) (Mjp x None None Input) = Raise NotImplementedError /\
  answer m (init m) (Jmp x None None Input) = Raise NotImplementedError.
Proof.
  exists (Leaf Flatten), [2], [2], 2, xA. eexists. repeat split; try lia; try (apply ty_leaf; leaf_dom); try (vm_compute; lia); vm_compute; reflexivity.
Qed.
Lemma none_l2norm : exists (m : module Z) s s' b (x t : tensor Z),
  typed m s s' /\ 0 < b /\ wf x /\ shape x = b :: s /\
  answer m (init m) (Jacobian x None Input) = Ok (VT t) /\
  answer m (init m) (Mjp x None None Input) = Raise TypeError /\
  answer m (init m) (Jmp x None None Input) = Raise TypeError /\
  snd (jTmjp m (init m) x None VNone Input true true false) = Raise TypeError /\
  snd (jmjTp m (init m) x None VNone Input true true false) = Raise TypeError.
Proof.
  exists (Leaf (L2Norm 0%Z)), [2], [2], 2, xA. eexists. repeat split; try lia; try (apply ty_leaf; leaf_dom); try (vm_compute; lia); vm_compute; reflexivity.
Qed.
Lemma none_skip_push : exists (m : module Z) s s' b (x t : tensor Z),
  typed m s s' /\ 0 < b /\ wf x /\ shape x = b :: s /\
  snd (jmjTp m (init m) x None (VT (identity_metric true b (numel s))) Input true true false) = Ok (VT t) /\
  snd (jmjTp m (init m) x None VNone Input true true false) = Raise TypeError.
Proof. exists netS, [2], [3], 2, xA. eexists. repeat split; try (apply netS_typed); try lia; vm_compute; reflexivity. Qed.
Lemma net4_typed : typed net4 [1; 2; 2] [4].
Proof.
  apply ty_seq. eapply tys_cons; [|eapply tys_cons; [|apply tys_nil]].
  - apply ty_leaf with (s' := [4]). leaf_dom; vm_compute; lia.
  - apply ty_leaf. leaf_dom; vm_compute; lia.
  - vm_compute; lia.
Qed.
Lemma none_seq_push : exists (m : module Z) s s' b (x t : tensor Z),
  typed m s s' /\ 0 < b /\ wf x /\ shape x = b :: s /\
  snd (jmjTp m (init m) x None (VT (identity_metric true b (numel s))) Input true true false) = Ok (VT t) /\
  snd (jmjTp m (init m) x None VNone Input true true false) = Raise RuntimeError.
Proof. exists net4, [1; 2; 2], [4], 2, x4. eexists. repeat split; try (apply net4_typed); try lia; vm_compute; reflexivity. Qed.
Lemma netC_typed : typed netC [1; 2; 2] [1; 2; 2].
Proof. apply ty_leaf. leaf_dom; vm_compute; lia. Qed.
Lemma netK_typed : typed netK [1; 2; 2] [2; 2; 2].
Proof. apply (ty_skip _ 1 1 [2; 2]). eapply tys_cons; [|apply tys_nil; vm_compute; lia]. exact netC_typed. Qed.
Lemma none_skip_pull : exists (m : module Z) s s' b (x t : tensor Z),
  typed m s s' /\ 0 < b /\ wf x /\ shape x = b :: s /\
  snd (jTmjp m (init m) x None (VT (identity_metric true b (numel s'))) Input true true false) = Ok (VT t) /\
  snd (jTmjp m (init m) x None VNone Input true true false) = Raise RuntimeError.
Proof. exists netK, [1; 2; 2], [2; 2; 2], 2, x4. eexists. repeat split; try (apply netK_typed); try lia; vm_compute; reflexivity. Qed.
Lemma none_conv_pull : exists (m : module Z) s s' b (x t : tensor Z),
  typed m s s' /\ 0 < b /\ wf x /\ shape x = b :: s /\
  snd (jTmjp m (init m) x None (VT (identity_metric true b (numel s'))) Input true false false) = Ok (VT t) /\
  snd (jTmjp m (init m) x None VNone Input true false false) = Raise AssertionError.
Proof. exists netC, [1; 2; 2], [1; 2; 2], 2, x4. eexists. repeat split; try (apply netC_typed); try lia; vm_compute; reflexivity. Qed.

(** *** C22: a skip connection without parameters *)
Lemma netW_typed : typed netW [2] [4].
Proof.
  apply (ty_skip _ 2 2 []). eapply tys_cons; [|apply tys_nil].
  - apply ty_leaf. leaf_dom; vm_compute; lia.
  - vm_compute; lia.
Qed.
Lemma skip_weight_raises : exists (m : module Z) s s' b (x v M M' : tensor Z),
  typed m s s' /\ n_params m = 0 /\ 0 < b /\ wf x /\ shape x = b :: s /\
  shape v = [b; 0] /\ shape M = [b; 0; 1] /\ shape M' = [b; 0; 0] /\ wf v /\ wf M /\ wf M' /\
  answer m (init m) (Jacobian x None Weight) = Raise TypeError /\
  answer m (init m) (Jvp x None v Weight) = Raise TypeError /\
  answer m (init m) (Jmp x None (Some M) Weight) = Raise TypeError /\
  snd (jmjTp m (init m) x None (VT M') Weight false false false) = Raise TypeError.
Proof.
  exists netW, [2], [4], 2, xA, (mkT [2; 0] []), (mkT [2; 0; 1] []), (mkT [2; 0; 0] []). repeat split; try (apply netW_typed); try lia; vm_compute; reflexivity.
Qed.

(** *** C35: wrt neither input nor weight *)
Lemma other_wrt_accepted : exists (m : module Z) (x M M' : tensor Z), typed m [2] [2] /\ wf x /\ shape x = [2; 2] /\
  snd (jTmjp m (init m) x None (VT M) Other true true false) = Ok VNone /\
  snd (jmjTp m (init m) x None (VT M') Other true true false) = Ok VNone.
Proof.
  exists netA, xA, (tz [2; 2] [1; 1; 1; 1]%Z), (tz [2; 2] [1; 1; 1; 1]%Z). repeat split; try (apply netA_typed); vm_compute; reflexivity.
Qed.
