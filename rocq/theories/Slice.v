(** Slices.  model[i:j] (nn.Sequential.__getitem__: self.__class__(OrderedDict(...))) is a new Sequential over the same layer
    objects: sequential.py:24-29 registers a second hook on each of them.  Here: any number of Sequentials with hooks, each over a
    range of one list of layer objects (a Sequential and its slices, slices of slices, overlapping or not), used in turn.  Every
    Sequential has its own list feature_maps; the layers, with their hidden state and parameters, are shared.  The list of layers
    is not edited (Edit.v is about that), and steps other than 1 are left out.  Here all slices are made before the calls; SliceProg.v
    has programs that make them at any time. *)
From Coq Require Import List Arith ZArith Lia Bool.
From Verif Require Import Scalar Tensor Conv Abstract Simple LinearLayer ConvLayer PoolLayer Module Calls.
Import ListNotations.
Local Open Scope nat_scope.
Local Open Scope list_scope.

(** a range: the first layer and the number of layers *)
Definition range := (nat * nat)%type.
(** l[i:i+n], and l with l[i:i+len(new)] replaced *)
Definition sub {A} (r : range) (l : list A) : list A := firstn (snd r) (skipn (fst r) l).
Definition paste {A} (i : nat) (new l : list A) : list A := firstn i l ++ new ++ skipn (i + length new) l.

Section Slice.
  Context {K} `{Num K}.
  Notation T := (tensor K).

  (** the feature maps of each Sequential, and the hidden states of the layers *)
  Record shared := Sh { sh_fms : list (list T); sh_kids : list (st K) }.
  (** the Sequential over a range, and its state *)
  Definition net (ms : list (module K)) (r : range) : module K := Seq true (sub r ms).
  Definition view (rs : list range) (W : shared) (q : nat) : st K := St (nth q (sh_fms W) []) None (sub (nth q rs (0, 0)) (sh_kids W)).
  Definition fresh (ms : list (module K)) (rs : list range) : shared := Sh (map (fun _ => []) rs) (map init ms).

  (** calls that start with self.forward(x), that is with self.feature_maps = [x] (sequential.py:30-32, 141-142, 232-233, 267-268,
      305-306, after the assertions); jvp and jmp run the layers without it (sequential.py:61-65, 69-80, 100-104, 108-119) *)
  Definition restarts (c : call K) : bool :=
    match c with
    | Forward _ => true
    | Jvp _ _ _ _ | Jmp _ _ (Some _) _ => false
    | Jacobian _ val w | Jmp _ val None w | Vjp _ val _ w | Mjp _ val _ w => match val with None => wrt_ok w | Some _ => false end
    | JmjTp _ val _ _ fd td db | JTmjp _ val _ _ fd td db => match val with None => db_ok fd td db | Some _ => false end
    end.
  (** what the layers returned during the call, one entry for each layer that ran, in order: every hook gets it (sequential.py:28) *)
  Definition produced (c : call K) (before after : list T) : list T :=
    if restarts c then tl after else skipn (length before) after.
  (** the part of it that concerns the layers in a range, when the first layer that ran is number i *)
  Definition heard (r : range) (i : nat) (out : list T) : list T :=
    map snd (filter (fun p => (fst r <=? fst p) && (fst p <? fst r + snd r)) (combine (seq i (length out)) out)).

  (** call number q's method *)
  Definition sh_answer (ms : list (module K)) (rs : list range) (W : shared) (qc : nat * call K) : res (value K) :=
    answer (net ms (nth (fst qc) rs (0, 0))) (view rs W (fst qc)) (snd qc).
  Definition sh_step (ms : list (module K)) (rs : list range) (W : shared) (qc : nat * call K) : shared :=
    let q := fst qc in
    let r := nth q rs (0, 0) in
    let s := view rs W q in
    let s' := fst (perform (net ms r) s (snd qc)) in
    let out := produced (snd qc) (st_fm s) (st_fm s') in
    Sh (map (fun p => if fst (fst p) =? q then st_fm s' else snd p ++ heard (snd (fst p)) (fst r) out)
            (combine (combine (seq 0 (length rs)) rs) (sh_fms W)))
       (paste (fst r) (st_kids s') (sh_kids W)).
  Definition sh_run (ms : list (module K)) (rs : list range) (W : shared) (cs : list (nat * call K)) : shared := fold_left (sh_step ms rs) cs W.

  (** slice.set_weight(w), the slice over r: the layers are the same objects *)
  Definition sh_set_weight (ms : list (module K)) (r : range) (w : T) : list (module K) * res unit :=
    match set_weight (net ms r) w with
    | (Seq _ mid, a) => (paste (fst r) mid ms, a)
    | (_, a) => (ms, a)
    end.
End Slice.
Arguments shared K : clear implicits.
