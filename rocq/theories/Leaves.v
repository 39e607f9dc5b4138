(** The contracts of all layers, gathered; the tree theorems with their layer hypotheses discharged. *)
From Coq Require Import String Ascii List Arith ZArith Lia Bool.
From Verif Require Import Scalar Sums Tensor TensorLemmas EinsumLemmas Conv Abstract Simple LinearLayer ConvLayer PoolLayer
  Module Spec OpLemmas ReshapeLemmas Jac LeafSpec LeafSimple LeafAct LeafLinear LeafUpsample LeafConv LeafPool TreeBase
  TreeVjp TreeMjp TreePull.
Import ListNotations.
Local Open Scope nat_scope.
Local Open Scope list_scope.

Section Leaves.
  Context {K} `{CR : CRing K}.
  Notation gt := (get (@n0 K _)).
  Notation T := (tensor K).

  Lemma leaf_back (l : leaf K) s s' : leaf_typed l s s' ->
    leaf_fwd_spec l s s' /\ leaf_jac_spec l s s' /\ leaf_vjp_spec l s s' /\ leaf_mjp_spec l s s' /\
    (leaf_sym l -> leaf_pull_spec l s s').
  Proof.
    intros Ty. destruct l.
    - pose proof (linear_spec W bias s s' Ty). cbn zeta in *. intuition.
    - pose proof (conv_spec cfg W bias s s' Ty). cbn zeta in *. intuition.
    - pose proof (act_spec a s s' Ty). intuition.
    - pose proof (id_spec Flatten s s' I Ty). intuition.
    - pose proof (id_spec (Reshape dims) s s' I Ty). intuition.
    - pose proof (l2_spec eps s s' Ty). intuition.
    - pose proof (upsample_spec sn sd s s' Ty). cbn zeta in *. intuition.
    - pose proof (custom_spec c s s' Ty). intuition.
  Qed.
  Lemma leaf_forth (l : leaf K) s s' : leaf_typed l s s' -> leaf_fwdable l ->
    leaf_jvp_spec l s s' /\ leaf_jmp_spec l s s' /\ leaf_push_spec l s s'.
  Proof.
    intros Ty Fb. destruct l; try contradiction.
    - pose proof (linear_spec W bias s s' Ty). cbn zeta in *. intuition.
    - pose proof (act_spec a s s' Ty). intuition.
    - pose proof (id_spec Flatten s s' I Ty). intuition.
    - pose proof (id_spec (Reshape dims) s s' I Ty). intuition.
    - pose proof (l2_spec eps s s' Ty). intuition.
    - pose proof (custom_spec c s s' Ty). intuition.
  Qed.
  Lemma BF : @base_fwd K _.
  Proof. intros l s s' Ty. now apply leaf_back. Qed.
  Lemma BPF : @base_pool_fwd K _.
  Proof. intros cfg s s' Ty. now apply pool_spec. Qed.
  Lemma BLv (l : leaf K) s s' : leaf_typed l s s' -> leaf_vjp_spec l s s'. Proof. intros; now apply leaf_back. Qed.
  Lemma BPv cfg s s' : pool_typed cfg s s' -> @pool_vjp_spec K _ cfg s s'. Proof. intros; now apply pool_spec. Qed.
  Lemma BLm (l : leaf K) s s' : leaf_typed l s s' -> leaf_mjp_spec l s s'. Proof. intros; now apply leaf_back. Qed.
  Lemma BPm cfg s s' : pool_typed cfg s s' -> @pool_mjp_spec K _ cfg s s'. Proof. intros; now apply pool_spec. Qed.
  Lemma BLj (l : leaf K) s s' : leaf_typed l s s' -> leaf_jac_spec l s s'. Proof. intros; now apply leaf_back. Qed.
  Lemma BLp (l : leaf K) s s' : leaf_typed l s s' -> leaf_sym l -> leaf_pull_spec l s s'. Proof. intros; now apply leaf_back. Qed.
  Lemma BPp cfg s s' : pool_typed cfg s s' -> @pool_pull_spec K _ cfg s s'. Proof. intros; now apply pool_spec. Qed.

End Leaves.
