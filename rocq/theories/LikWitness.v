(** Networks, inputs and targets for the likelihood theorems. *)
From Coq Require Import List Arith Lia Bool Reals Lra.
From Verif Require Import Scalar Sums Tensor TensorLemmas Conv Abstract Simple LinearLayer ConvLayer PoolLayer Module LogLik Spec Domain Smooth Calc LikSpec LikFlat Examples ExamplesR.
Import ListNotations.
Local Open Scope nat_scope.
Local Open Scope list_scope.

(** one linear layer 1 -> 2 without bias *)
Definition netL : module R := Leaf (Linear (tr [2; 1] [0; 0]%R) None).
Definition xL1 : tensor R := tr [1; 1] [1%R].
(** a target that is not a probability vector *)
Definition tL : tensor R := tr [1; 2] [0; 0]%R.
Definition lsum : loglik := {| ll_agg := AggSum; ll_shape := MDiag; ll_backprop := MExact |}.
Definition wL (t : R) : tensor R := tr [2] [t; 0]%R.
Definition dL : tensor R := tr [2] [1; 0]%R.
Lemma netL_typed : typed netL [1] [2].
Proof. apply ty_leaf. split; [|split]; [vm_compute; lia|vm_compute; lia|]. cbn. repeat split. Qed.
Lemma netL_gradient : exists g, snd (ll_gradient LogBernoulli lsum netL st0 xL1 (Some tL) Weight) = Ok (Some g) /\ nth 0 (data g) 0%R = (- (1 / 2))%R.
Proof.
  eexists. split; [cbv -[Rplus Rmult Rminus Ropp Rdiv Rinv exp ln IZR R0 R1 Rlt_dec]; reflexivity|]. cbn [nth data]. rewrite ?Rmult_0_l, ?Rmult_0_r, ?Rplus_0_l, ?Rplus_0_r.
  rewrite exp_0. field.
Qed.
Lemma wL_moves : wL 0 = tr [2] [0; 0]%R /\ moves wL 0 dL.
Proof.
  split; [reflexivity|]. split; [reflexivity|]. split; [intros; split; reflexivity|]. intros k Hk. unfold numel in Hk. cbn in Hk.
  destruct k as [|[|]]; [| |lia]; cbn [data tr wL dL nth]; [apply dl_id|apply dl_const].
Qed.
(** with an all-zero target the log-likelihood is constant in the weights *)
Lemma netL_constant t : exists m', set_weight netL (wL t) = (m', Ok tt) /\
  forall h, snd (ll_forward LogBernoulli lsum m' h xL1 (Some tL)) = Ok (Some (mkT [] [0%R])).
Proof.
  eexists. split; [reflexivity|]. intros h. etransitivity; [cbv -[Rplus Rmult Rminus Ropp Rdiv Rinv exp ln IZR R0 R1 Rlt_dec]; reflexivity|]. do 4 f_equal. ring.
Qed.
Lemma not_gradient : exists (m : module R) (s s' : list nat) (b : nat) (x tg w0 g : tensor R) (l : loglik),
  ll_init AggSum MDiag MExact = Ok l /\ typed m s s' /\ 0 < b /\ wf x /\ shape x = b :: s /\ smooth m x /\ get_weight m = Ok w0 /\
  wf tg /\ shape tg = b :: s' /\ s' <> [] /\ snd (ll_gradient LogBernoulli l m st0 x (Some tg) Weight) = Ok (Some g) /\
  exists w t0 dw, w t0 = w0 /\ moves w t0 dw /\
    forall F, (forall t, exists m', set_weight m (w t) = (m', Ok tt) /\ forall h', snd (ll_forward LogBernoulli l m' h' x (Some tg)) = Ok (Some (mkT [] [F t]))) ->
      ~ derivable_pt_lim F t0 (bsum (n_params m) (fun p => nth p (data g) 0 * nth p (data dw) 0))%R.
Proof.
  destruct netL_gradient as (g & Eg & Hg). destruct wL_moves as [W0 Mw].
  exists netL, [1], [2], 1, xL1, tL, (tr [2] [0; 0]%R), g, lsum. split; [reflexivity|]. split; [exact netL_typed|]. split; [lia|]. split; [reflexivity|]. split; [reflexivity|].
  split; [exact I|]. split; [reflexivity|]. split; [reflexivity|]. split; [reflexivity|]. split; [discriminate|]. split; [exact Eg|].
  exists wL, 0%R, dL. split; [exact W0|]. split; [exact Mw|]. intros F HF D.
  assert (E : forall t, F t = 0%R).
  { intros t. destruct (HF t) as (m1 & E1 & V1). destruct (netL_constant t) as (m2 & E2 & V2). rewrite E1 in E2. injection E2 as <-.
    specialize (V1 st0). rewrite V2 in V1. injection V1 as V1. now symmetry. }
  assert (D0 : derivable_pt_lim F 0%R 0%R) by (apply (dl_ext (fun _ => 0%R)); [intros; now rewrite E|apply dl_const]).
  pose proof (uniqueness_limite F 0%R _ _ D D0) as U. change (n_params netL) with 2 in U. cbn [bsum nadd n0 Num_R] in U. rewrite Hg in U. cbn [data dL tr] in U. change (nth 1 [1%R; 0%R] 0%R) with 0%R in U. change (nth 0 [1%R; 0%R] 0%R) with 1%R in U. lra.
Qed.
(** a one-hot target for netR *)
Definition tR : tensor R := tr [2; 2] [1; 0; 0; 1]%R.
Lemma tR_proper q : q < 2 -> proper LogBernoulli 2 2 (sample 2 tR q).
Proof.
  intros Hq g Hg. assert (g = 0) by lia. subst g. destruct q as [|[|]]; [| |lia]; cbn; ring.
Qed.
Lemma netL_sym : all_sym netL /\ nonempty netL. Proof. split; exact I. Qed.
Lemma netR_sym : all_sym netR. Proof. repeat split. Qed.
Lemma netR_nonempty : nonempty netR. Proof. vm_compute. repeat split; discriminate. Qed.
(** one sample as two groups of two classes *)
Definition netG : module R := Seq true [Leaf (Linear (tr [4; 2] [1; 0; 2; 1; 0; 0; 3; 1]%R) None); Leaf (Reshape [2; 2]%Z)].
Lemma netG_typed : typed netG [2] [2; 2].
Proof.
  apply ty_seq. eapply tys_cons; [|eapply tys_cons; [|apply tys_nil]].
  - apply ty_leaf with (s' := [4]). leaf_dom; try (vm_compute; lia).
  - apply ty_leaf. leaf_dom; try (vm_compute; lia).
  - vm_compute; lia.
Qed.
