(** C16, C17, C18, C43, C44: hidden state and histories of calls.
    A history is a list of method calls with arbitrary arguments, at arbitrary inputs, whether or not they raise. *)
From Coq Require Import List Arith ZArith Bool Lia.
From Verif Require Import Scalar Sums Tensor Abstract Simple Module Spec Domain Calls ValArg Frozen History Witness Examples.
Import ListNotations.
Local Open Scope nat_scope.
Local Open Scope list_scope.

(** After any history that ends with model(x) followed by any calls at x, every product called at x with that value
    answers as it does on any state with val=None.  For a SkipConnection itself (not one inside a Sequential) this
    excludes jacobian and mjp/jmp without a matrix: see C18_refuted. *)
Theorem C16_history : forall (K : Type) (N : Num K) (CR : CRing K) (m : module K) s s' b (x y : tensor K) hist calls c h h',
  typed m s s' -> 0 < b -> wf x -> shape x = b :: s -> fwd m x = Ok y ->
  Forall (fun c => point c = x) calls -> point c = x -> wrt_of c <> Other -> is_skip m = false \/ whole_jacobian c = false ->
  answer m (run m h (hist ++ Forward x :: calls)) (pass_val (Some y) c) = answer m h' (pass_val None c).
Proof. exact (fun K N CR m s s' b x y hist calls c h h' => history_val m s s' b x y hist calls c h h'). Qed.
Print Assumptions C16_history.
(** a history with a call that raises, calls at another input, forward-mode calls and calls at x; the answer is not an exception *)
Example C16_case :
  let x' := tz [1; 2] [5; (-7)]%Z in
  let v := tz [2; 2] [1; 0; 2; 1]%Z in
  let hist := [Vjp x' None (tz [1; 3] [1; 1; 1]%Z) Input; Jvp x' None (tz [1; 2] [1; 1]%Z) Input; Forward x'] in
  let calls := [Jvp xA None v Input; Vjp xA None v Weight] in
  answer netA (init netA) (Vjp x' None (tz [1; 3] [1; 1; 1]%Z) Input) = Raise RuntimeError /\
  answer netA (run netA (init netA) (hist ++ Forward xA :: calls)) (Vjp xA (Some (tz [2; 2] [78; 20; 24; 14]%Z)) v Input) =
  answer netA (init netA) (Vjp xA None v Input) /\ exists t, answer netA (init netA) (Vjp xA None v Input) = Ok (VT t).
Proof. split; [vm_compute; reflexivity|]. split; [vm_compute; reflexivity|]. eexists. vm_compute. reflexivity. Qed.

(** With calls at other inputs in between that do not start a new forward pass (jvp, jmp, and every product that is
    handed its val), the stored value stays usable when the network has no nested Sequential, no pooling layer and
    no SkipConnection inside a Sequential.  Missing: the other networks, where it fails (C17_refuted). *)
Theorem C17_partial : forall (K : Type) (N : Num K) (CR : CRing K) (m : module K) s s' b (x y : tensor K) hist calls c h',
  flat_net m = true -> typed m s s' -> 0 < b -> wf x -> shape x = b :: s -> fwd m x = Ok y ->
  Forall (fun c => point c = x \/ resumes c = true) calls -> point c = x -> wrt_of c <> Other -> is_skip m = false \/ whole_jacobian c = false ->
  answer m (run m (init m) (hist ++ Forward x :: calls)) (pass_val (Some y) c) = answer m h' (pass_val None c).
Proof. exact (fun K N CR m s s' b x y hist calls c h' => history_resumes m s s' b x y hist calls c h'). Qed.
Print Assumptions C17_partial.
Example C17_case :
  let x' := tz [1; 2] [5; (-7)]%Z in
  let v := tz [2; 2] [1; 0; 2; 1]%Z in
  let calls := [Jvp x' None (tz [1; 2] [1; 1]%Z) Input; Jmp x' None (Some (tz [1; 2; 1] [1; 1]%Z)) Input; Vjp xA None v Weight] in
  flat_net netF = true /\ Forall (fun c => point c = xA \/ resumes c = true) calls /\
  exists y t, fwd netF xA = Ok y /\ answer netF (run netF (init netF) (Forward xA :: calls)) (Vjp xA (Some y) v Input) = Ok (VT t).
Proof.
  cbv zeta. split; [reflexivity|]. split; [repeat constructor; cbn; tauto|]. eexists. eexists. split; vm_compute; reflexivity.
Qed.
(** In a nested Sequential a jvp at another input overwrites what the inner Sequential remembers, so a product called
    with the saved (x, val) silently returns the product at the other input. *)
Theorem C17_refuted : exists (m : module Z) s s' b (x x' y v : tensor Z) t t',
  typed m s s' /\ 0 < b /\ wf x /\ shape x = b :: s /\ wf x' /\ shape x' = b :: s /\ fwd m x = Ok y /\
  answer m (init m) (Vjp x None v Input) = Ok (VT t) /\
  answer m (run m (init m) [Forward x; Jvp x' None v Input]) (Vjp x (Some y) v Input) = Ok (VT t') /\ t <> t'.
Proof. exact jvp_spoils_val. Qed.
Print Assumptions C17_refuted.
(** the same with a pooling layer inside a Sequential, although the intervening jvp raises *)
Theorem C17_refuted_pool : exists (m : module Z) s s' b (x x' y v v' : tensor Z) t t',
  typed m s s' /\ 0 < b /\ wf x /\ shape x = b :: s /\ wf x' /\ shape x' = b :: s /\ fwd m x = Ok y /\
  answer m (init m) (Vjp x None v Input) = Ok (VT t) /\
  answer m (run m (init m) [Forward x]) (Jvp x' None v' Input) = Raise NotImplementedError /\
  answer m (run m (init m) [Forward x; Jvp x' None v' Input]) (Vjp x (Some y) v Input) = Ok (VT t') /\ t <> t'.
Proof. exact pool_spoils_val. Qed.
Print Assumptions C17_refuted_pool.

(** The state in which the val-call is made must describe the pass at x; any state is allowed for the val=None call. *)
Theorem C18_val : forall (K : Type) (N : Num K) (CR : CRing K) (m : module K) s s' b (x y : tensor K) c h h',
  typed m s s' -> 0 < b -> wf x -> shape x = b :: s -> fwd m x = Ok y ->
  point c = x -> wrt_of c <> Other -> is_skip m = false \/ whole_jacobian c = false ->
  answer m h (pass_val None c) = answer m (run m h' [Forward x]) (pass_val (Some y) c).
Proof. exact (fun K N CR m s s' b x y c h h' Ty B W S F P w k => eq_sym (history_val m s s' b x y [] [] c h' h Ty B W S F (Forall_nil _) P w k)). Qed.
Print Assumptions C18_val.
Example C18_case : exists y t, fwd netB xB = Ok y /\ answer netB (init netB) (JTmjp xB None (VT (tz [1; 1] [2]%Z)) Weight true true false) = Ok (VT t) /\
  answer netB (run netB (init netB) [Forward xB]) (JTmjp xB (Some y) (VT (tz [1; 1] [2]%Z)) Weight true true false) = Ok (VT t).
Proof. eexists. eexists. split; [|split]; vm_compute; reflexivity. Qed.
(** SkipConnection.jacobian with val given: the whole concatenated val is passed to the inner network, so that the
    call raises, or returns too many rows when the inner sizes broadcast *)
Theorem C18_refuted : exists (m : module Z) s s' b (x y t t' u : tensor Z),
  typed m s s' /\ 0 < b /\ wf x /\ shape x = b :: s /\ fwd m x = Ok y /\
  answer m (run m (init m) [Forward x]) (Jacobian x None Input) = Ok (VT t) /\
  answer m (run m (init m) [Forward x]) (Jacobian x (Some y) Input) = Ok (VT t') /\ shape t <> shape t' /\
  answer m (run m (init m) [Forward x]) (Jacobian x None Weight) = Ok (VT u) /\
  answer m (run m (init m) [Forward x]) (Jacobian x (Some y) Weight) = Raise RuntimeError /\
  answer m (run m (init m) [Forward x]) (Mjp x (Some y) None Weight) = Raise RuntimeError /\
  answer m (run m (init m) [Forward x]) (Jmp x (Some y) None Weight) = Raise RuntimeError.
Proof. exact skip_jacobian_val. Qed.
Print Assumptions C18_refuted.

(** Any number of forward and reverse-mode calls keeps at most one tensor per pooling layer and, per Sequential, its
    input and one result per child.  Missing: the forward-mode products (C43_refuted). *)
Theorem C43_reverse_partial : forall (K : Type) (N : Num K) (m : module K) calls,
  Forall (fun c => forward_or_backward c = true) calls -> stored (run m (init m) calls) <= slots m.
Proof. exact (fun K N m calls => run_stored m calls). Qed.
Print Assumptions C43_reverse_partial.
(** whatever was called before, one model(x) brings the state back to that size *)
Theorem C43_forward_partial : forall (K : Type) (N : Num K) (CR : CRing K) (m : module K) s s' b (x : tensor K) hist,
  typed m s s' -> 0 < b -> wf x -> shape x = b :: s -> stored (run m (init m) (hist ++ [Forward x])) <= slots m.
Proof. exact (fun K N CR m s s' b x hist => run_forward_stored m s s' b x hist). Qed.
Print Assumptions C43_forward_partial.
Example C43_case : slots netA = 10 /\ stored (run netA (init netA) [Forward xA; Vjp xA None xA Input; Jvp xA None xA Input; Jvp xA None xA Input]) = 21 /\
  stored (run netA (init netA) ([Forward xA; Vjp xA None xA Input; Jvp xA None xA Input; Jvp xA None xA Input] ++ [Forward xA])) = 10.
Proof. vm_compute. auto. Qed.
(** n calls of jvp on Sequential(ReLU) leave n tensors behind *)
Theorem C43_refuted : exists (m : module Z) (x v : tensor Z), typed m [1] [1] /\
  forall n, stored (run m (init m) (repeat (Jvp x None v Input) n)) = n.
Proof. exact jvp_grows_forever. Qed.
Print Assumptions C43_refuted.

(** The model computes the same function after every history.  (Parameters are not part of the state that a call
    returns, see DESIGN.md: no product method of the code assigns to a parameter.) *)
Theorem C44_function : forall (K : Type) (N : Num K) (CR : CRing K) (m : module K) hist x,
  answer m (run m (init m) hist) (Forward x) = answer m (init m) (Forward x).
Proof. exact (fun K N CR m hist x => forward_answer m hist x). Qed.
Print Assumptions C44_function.
(** reverse-mode calls with val leave the state reached by any history exactly as it was, for all arguments *)
Theorem C44_state : forall (K : Type) (N : Num K) (m : module K) hist c,
  backward c = true -> given_val c <> None -> run m (run m (init m) hist) [c] = run m (init m) hist.
Proof. exact (fun K N m hist c => run_frozen m hist c). Qed.
Print Assumptions C44_state.
Example C44_case : exists y, fwd netB xB = Ok y /\ run netB (init netB) [Forward xB] <> init netB /\
  run netB (init netB) [Forward xB; Vjp xB (Some y) (tz [1; 1] [1]%Z) Weight] = run netB (init netB) [Forward xB].
Proof. eexists. split; [vm_compute; reflexivity|]. split; [vm_compute; discriminate|vm_compute; reflexivity]. Qed.
