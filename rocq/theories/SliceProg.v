(** Slices made at any time, and weights set through any of them. *)
From Coq Require Import List Arith ZArith Lia Bool.
From Verif Require Import Scalar Tensor Conv Abstract Simple LinearLayer ConvLayer PoolLayer Module Calls Slice.
Import ListNotations.
Local Open Scope nat_scope.
Local Open Scope list_scope.

Section Prog.
  Context {K} `{Num K}.
  Notation T := (tensor K).
  (** s = model[i:i+n] (sequential.py:10-28: an empty list of feature maps, hooks on the layers); a call on Sequential number q;
      set_weight on Sequential number q (abstract_jacobian.py:235-246).  Number 0 is the one made first. *)
  Inductive event := Make (r : range) | Use (q : nat) (c : call K) | SetWeight (q : nat) (w : T).
  (** the layers with their parameters, the ranges of the Sequentials made so far, the hidden state *)
  Record world := Wd { wd_ms : list (module K); wd_rs : list range; wd_sh : shared K }.
  (** before any Sequential is made (a layer that is a network has been made, and not called) *)
  Definition start (ms : list (module K)) : world := Wd ms [] (fresh ms []).
  Definition ev_step (W : world) (e : event) : world :=
    match e with
    | Make r => Wd (wd_ms W) (wd_rs W ++ [r]) (Sh (sh_fms (wd_sh W) ++ [[]]) (sh_kids (wd_sh W)))
    | Use q c => Wd (wd_ms W) (wd_rs W) (sh_step (wd_ms W) (wd_rs W) (wd_sh W) (q, c))
    | SetWeight q w => Wd (fst (sh_set_weight (wd_ms W) (nth q (wd_rs W) (0, 0)) w)) (wd_rs W) (wd_sh W)
    end.
  Definition ev_run (W : world) (es : list event) : world := fold_left ev_step es W.
  (** what a call returns *)
  Definition ev_answer (W : world) (q : nat) (c : call K) : res (value K) := sh_answer (wd_ms W) (wd_rs W) (wd_sh W) (q, c).
End Prog.
Arguments event K : clear implicits.
Arguments world K : clear implicits.
