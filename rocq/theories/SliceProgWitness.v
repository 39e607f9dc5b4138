(** Slices made at any time: a concrete case. *)
From Coq Require Import List Arith ZArith Lia Bool.
From Verif Require Import Scalar Tensor Conv Abstract Simple LinearLayer Module Domain Trees Calls History Params Examples Slice SliceProofs SliceWitness SliceProg SliceProgProofs.
Import ListNotations.
Local Open Scope nat_scope.
Local Open Scope list_scope.

(** model is made and called, model[1:].set_weight([5]), another slice is made after the value was saved *)
Definition before : list (event Z) :=
  [Make (0, 3); Use 0 (Forward (tz [1; 1] [9]%Z)); Make (1, 2); SetWeight 1 (tz [1] [5]%Z); Use 1 (Jvp (tz [1; 1] [4]%Z) None (tz [1; 1] [1]%Z) Input)].
Definition after : list (event Z) :=
  [Make (1, 1); Use 2 (Forward (tz [2; 1] [5; 6]%Z)); Use 0 (Jmp (tz [1; 1] [1]%Z) None None Input); Use 1 (Vjp (tz [1; 1] [4]%Z) None (tz [1; 1] [1]%Z) Weight); Make (0, 3)].
Lemma prog_case : let W := ev_run (start tailed) before in
  sized (Seq true tailed) /\ nth_error (wd_rs W) 0 = Some (0, 3) /\ typed (net tailed (0, 3)) [1] [1] /\ calm (wd_ms W) (wd_rs W) 0 (tz [1; 1] [1]%Z) after /\
  fwd (net (wd_ms W) (0, 3)) (tz [1; 1] [1]%Z) = Ok (tz [1; 1] [5]%Z) /\
  ev_answer (ev_run (start tailed) (before ++ Use 0 (Forward (tz [1; 1] [1]%Z)) :: after)) 0 (Vjp (tz [1; 1] [1]%Z) (Some (tz [1; 1] [5]%Z)) (tz [1; 1] [1]%Z) Input) =
    Ok (VT (tz [1; 1] [5]%Z)).
Proof.
  intros W. assert (Em : wd_ms W = [netN; Leaf (Linear (tz [1; 1] [5]%Z) None); Leaf (Act ReLU)]) by (vm_compute; reflexivity).
  assert (Er : wd_rs W = [(0, 3); (1, 2)]) by (vm_compute; reflexivity). rewrite Em, Er. clearbody W.
  assert (P : forall p m, nth_error [netN; Leaf (Linear (tz [1; 1] [5]%Z) None); Leaf (Act ReLU)] p = Some m -> 1 <= p -> stateless m = true).
  { intros [|[|[|p]]] m E L; cbn in E; try lia; try (injection E as <-; reflexivity). now destruct p. }
  split; [cbn; repeat split; exists 1, 1; repeat split|]. split; [reflexivity|]. split; [exact tailed_typed|]. split; [|split; vm_compute; reflexivity].
  cbn. repeat split; intros p m E _ L; cbn in L; apply (P p); auto; lia.
Qed.
(** Sequential(Linear(1, 1), Linear(1, 1), Linear(1, 1)), all with weight 2: model[1:2].set_weight([7]) after the value was saved *)
Lemma set_spoils_val : exists (ms : list (module Z)) (x y v w t t' t2 : tensor Z),
  answer (Seq true ms) (init (Seq true ms)) (Vjp x None v Weight) = Ok (VT t) /\
  fwd (Seq true ms) x = Ok y /\
  let W := ev_run (start ms) [Make (0, length ms); Make (1, 1); Use 0 (Forward x); SetWeight 1 w] in
  ev_answer W 0 (Vjp x (Some y) v Weight) = Ok (VT t') /\ answer (Seq true (wd_ms W)) (init (Seq true ms)) (Vjp x None v Weight) = Ok (VT t2) /\ t' <> t /\ t' <> t2.
Proof.
  exists [twice; twice; twice], (tz [1; 1] [3]%Z), (tz [1; 1] [24]%Z), (tz [1; 1] [1]%Z), (tz [1] [7]%Z). do 3 eexists.
  repeat split; try (vm_compute; reflexivity); vm_compute; discriminate.
Qed.
