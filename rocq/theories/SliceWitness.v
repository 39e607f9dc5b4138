(** Slices: concrete networks. *)
From Coq Require Import List Arith ZArith Lia Bool.
From Verif Require Import Scalar Sums Tensor Conv Abstract Simple LinearLayer ConvLayer PoolLayer Module Spec Domain Calls ValArg Frozen History Examples Witness Slice SliceProofs.
Import ListNotations.
Local Open Scope nat_scope.
Local Open Scope list_scope.

(** model = Sequential(Sequential(Sequential(ReLU())), Linear(1, 1)); model[:1] is called in between *)
Definition twice : module Z := Leaf (Linear (tz [1; 1] [2]%Z) None).
Definition nested : list (module Z) := [netN; twice].
Lemma nested_typed : typed (net nested (0, 2)) [1] [1].
Proof.
  apply ty_seq. eapply tys_cons; [exact netN_typed|]. eapply tys_cons; [|apply tys_nil; vm_compute; lia]. apply ty_leaf.
  split; [vm_compute; lia|]. split; [vm_compute; lia|]. cbn. repeat split.
Qed.
Lemma slice_spoils_val : exists (ms : list (module Z)) rs s s' b (x x' y v : tensor Z) t t',
  rs = [(0, length ms); (0, 1)] /\ typed (Seq true ms) s s' /\ 0 < b /\ wf x /\ shape x = b :: s /\ wf x' /\ shape x' = b :: s /\ fwd (Seq true ms) x = Ok y /\
  answer (Seq true ms) (init (Seq true ms)) (Vjp x None v Input) = Ok (VT t) /\
  sh_answer ms rs (sh_run ms rs (fresh ms rs) [(0, Forward x)]) (0, Vjp x (Some y) v Input) = Ok (VT t) /\
  sh_answer ms rs (sh_run ms rs (fresh ms rs) [(0, Forward x); (1, Forward x')]) (0, Vjp x (Some y) v Input) = Ok (VT t') /\ t <> t'.
Proof.
  exists nested, [(0, 2); (0, 1)], [1], [1], 1, (tz [1; 1] [1]%Z), (tz [1; 1] [(-1)]%Z), (tz [1; 1] [2]%Z), (tz [1; 1] [1]%Z), (tz [1; 1] [2]%Z), (tz [1; 1] [0]%Z).
  split; [reflexivity|]. split; [exact nested_typed|]. repeat split; try lia; try (vm_compute; reflexivity). discriminate.
Qed.
(** the other way round: the slice holds a saved value while the model runs on another batch; a pooling layer is shared *)
Definition pooled : list (module Z) := [Leaf (Act ReLU); MaxPool poolB; Leaf Flatten].
Lemma model_spoils_slice : exists (ms : list (module Z)) rs (x x' y v : tensor Z) t t',
  rs = [(0, length ms); (1, 1)] /\ shape x = [1; 2; 4; 4] /\ shape x' = [1; 2; 4; 4] /\ fwd (net ms (1, 1)) x = Ok y /\
  answer (net ms (1, 1)) (init (net ms (1, 1))) (Vjp x None v Input) = Ok (VT t) /\
  sh_answer ms rs (sh_run ms rs (fresh ms rs) [(1, Forward x); (0, Forward x')]) (1, Vjp x (Some y) v Input) = Ok (VT t') /\ t <> t'.
Proof.
  exists pooled, [(0, 3); (1, 1)], (mkT [1; 2; 4; 4] (map (fun k => ((Z.of_nat k * 7) mod 11)%Z) (seq 0 32))), (mkT [1; 2; 4; 4] (map (fun k => ((Z.of_nat k * 5) mod 13)%Z) (seq 0 32))).
  eexists. exists (mkT [1; 8] (repeat 1%Z 8)). do 2 eexists. repeat split; try (vm_compute; reflexivity). vm_compute. discriminate.
Qed.
(** layers without memory in common: model = Sequential(Sequential(Sequential(ReLU())), Linear(1, 1), ReLU()), model[1:] and model[1:2] *)
Definition tailed : list (module Z) := [netN; twice; Leaf (Act ReLU)].
Definition tail_ranges : list range := [(0, 3); (1, 2); (1, 1)].
Definition between : list (nat * call Z) :=
  [(1, Forward (tz [2; 1] [5; 6]%Z)); (2, Jvp (tz [1; 1] [(-3)]%Z) None (tz [1; 1] [1]%Z) Input); (1, Vjp (tz [1; 1] [4]%Z) None (tz [1; 1] [1]%Z) Weight); (1, Forward (tz [1; 2] [1; 1]%Z))].
Lemma tailed_typed : typed (net tailed (0, 3)) [1] [1].
Proof.
  apply ty_seq. eapply tys_cons; [exact netN_typed|]. eapply tys_cons; [|eapply tys_cons; [|apply tys_nil; vm_compute; lia]]; apply ty_leaf with (s' := [1]); leaf_dom.
Qed.
Lemma tailed_case : typed (net tailed (0, 3)) [1] [1] /\ share_plain tailed (0, 3) (1, 2) /\ share_plain tailed (0, 3) (1, 1) /\
  ~ share_plain tailed (0, 3) (0, 1) /\ fwd (net tailed (0, 3)) (tz [1; 1] [1]%Z) = Ok (tz [1; 1] [2]%Z) /\
  length (st_fm (view tail_ranges (sh_run tailed tail_ranges (fresh tailed tail_ranges) ((0, Forward (tz [1; 1] [1]%Z)) :: between)) 0)) = 9 /\
  sh_answer tailed tail_ranges (sh_run tailed tail_ranges (fresh tailed tail_ranges) ((0, Forward (tz [1; 1] [1]%Z)) :: between))
    (0, Vjp (tz [1; 1] [1]%Z) (Some (tz [1; 1] [2]%Z)) (tz [1; 1] [1]%Z) Input) = Ok (VT (tz [1; 1] [2]%Z)).
Proof.
  split; [exact tailed_typed|].
  assert (P : forall p m, nth_error tailed p = Some m -> 1 <= p -> stateless m = true).
  { intros [|[|[|p]]] m E L; cbn in E; try lia; try (injection E as <-; reflexivity). now destruct p. }
  split; [intros p m E _ L; cbn in L; apply (P p); auto; lia|]. split; [intros p m E _ L; cbn in L; apply (P p); auto; lia|].
  split; [intros S'; specialize (S' 0 netN eq_refl ltac:(cbn; lia) ltac:(cbn; lia)); discriminate|]. repeat split; vm_compute; reflexivity.
Qed.
(** model[2:3].set_weight([7]) *)
Definition two_linear : list (module Z) := [twice; Leaf (Act ReLU); twice].
Lemma weight_case : sized (Seq true two_linear) /\ params (net two_linear (2, 1)) <> [] /\
  get_weight (Seq true (fst (sh_set_weight two_linear (2, 1) (tz [1] [7]%Z)))) = Ok (tz [2] [2; 7]%Z).
Proof. split; [|split; [discriminate|vm_compute; reflexivity]]. cbn. repeat split; exists 1, 1; repeat split. Qed.
