(** C64: vectors with a wrong number of columns. *)
From Coq Require Import List Arith ZArith.
From Verif Require Import Scalar Tensor Conv Abstract Simple Module Domain Jac Calls Width WidthProofs WidthWitness Bench.
Import ListNotations.
Local Open Scope nat_scope.
Local Open Scope list_scope.

(** wanted: vjp rejects every vector whose number of columns is not the number of entries of an output.  True of networks
    without skip connections and without a layer that has exactly one output entry, unless the vector has exactly one column
    or the network consists of Flatten and Reshape only *)
Theorem C64_rejected_partial : forall (K : Type) (N : Num K) (CR : CRing K) (m : module K) s s' b (x v : tensor K) k h,
  typed m s s' -> 0 < b -> wf x -> shape x = b :: s -> wf v -> shape v = [b; k] -> no_single m x -> ~ reshapes m ->
  k <> 1 -> k <> numel s' -> snd (vjp m h x None v Input) = Raise RuntimeError \/ snd (vjp m h x None v Input) = Raise AssertionError.
Proof. exact (fun K N CR m s s' b x v k h => vjp_rejects m s s' b x v k h). Qed.
Print Assumptions C64_rejected_partial.
(** which vectors are accepted, for every network *)
Theorem C64_exact : forall (K : Type) (N : Num K) (CR : CRing K) (m : module K) s s' b (x v : tensor K) k h,
  typed m s s' -> 0 < b -> wf x -> shape x = b :: s -> wf v -> shape v = [b; k] ->
  match width m x k with
  | Some k' => exists t, snd (vjp m h x None v Input) = Ok (Some t) /\ wf t /\ shape t = [b; k']
  | None => snd (vjp m h x None v Input) = Raise RuntimeError \/ snd (vjp m h x None v Input) = Raise AssertionError
  end.
Proof. exact (fun K N CR m s s' b x v k h => vjp_width m s s' b x v k h). Qed.
Print Assumptions C64_exact.
(** false in general: one column is accepted by Linear(2, 3); five columns are accepted by Linear(2, 1), by a Tanh on one entry (with
    five columns in the result) and by Flatten *)
Theorem C64_refuted :
  (exists (m : module Z) (x v t : tensor Z), typed m [2] [3] /\ wf x /\ shape x = [1; 2] /\ wf v /\ shape v = [1; 1] /\
     snd (vjp m (init m) x None v Input) = Ok (Some t)) /\
  (exists (m : module Z) (x v t : tensor Z), typed m [2] [1] /\ wf x /\ shape x = [1; 2] /\ wf v /\ shape v = [1; 5] /\
     snd (vjp m (init m) x None v Input) = Ok (Some t)) /\
  (exists (m : module Z) (x v t : tensor Z), typed m [1] [1] /\ wf x /\ shape x = [1; 1] /\ wf v /\ shape v = [1; 5] /\
     snd (vjp m (init m) x None v Input) = Ok (Some t) /\ shape t = [1; 5]) /\
  (exists (m : module Z) (x v t : tensor Z), typed m [2; 2] [4] /\ wf x /\ shape x = [1; 2; 2] /\ wf v /\ shape v = [1; 5] /\
     snd (vjp m (init m) x None v Input) = Ok (Some t)).
Proof. exact accepted_vectors. Qed.
Print Assumptions C64_refuted.
(** nor for the parameters: with a network that returns one number per sample, the README's example with targets of shape (b)
    instead of (b, 1) raises nothing and returns a vector with too many entries *)
Theorem C64_readme_refuted : exists (m : module Z) (x tg g : tensor Z), typed m [2] [1] /\ wf x /\ shape x = [2; 2] /\ wf tg /\ shape tg = [2] /\
  snd (readme_gradient m (init m) x tg) = Ok g /\ n_params m = 3 /\ shape g = [6].
Proof. exact broadcast_target. Qed.
Print Assumptions C64_readme_refuted.
(** matrices: activations, Flatten and Reshape reject every matrix that is not square when only the diagonal of the result is wanted *)
Theorem C64_nonsquare : forall (K : Type) (N : Num K) (CR : CRing K) (l : leaf K) s s' b (x y M : tensor K) n n' h db,
  leaf_typed l s s' -> diagonal_layer l -> 0 < b -> wf x -> shape x = b :: s -> fwd (Leaf l) x = Ok y -> shape M = [b; n; n'] -> n <> n' ->
  snd (jTmjp (Leaf l) h x (Some y) (VT M) Input false true db) = Raise RuntimeError /\
  snd (jmjTp (Leaf l) h x (Some y) (VT M) Input false true db) = Raise RuntimeError.
Proof. exact (fun K N CR l s s' b x y M n n' h db => nonsquare_raises l s s' b x y M n n' h db). Qed.
Print Assumptions C64_nonsquare.
Example C64_nonsquare_case : let M := mkT [1; 1; 2] [1; 2]%Z in leaf_typed (@Flatten Z) [2] [2] /\ shape M = [1; 1; 2] /\ fwd (Leaf Flatten) (mkT [1; 2] [1; 2]%Z) = Ok (mkT [1; 2] [1; 2]%Z).
Proof. exact nonsquare_case. Qed.
(** Linear(2, 3) - ReLU - Linear(3, 2) satisfies the hypotheses of C64_rejected_partial, and one with a skip connection accepts
    exactly 3 and 6 columns among 0 to 7 *)
Example C64_case : let m := Seq true [Leaf (Linear (mkT [3; 2] (repeat 1%Z 6)) None); Leaf (Act ReLU); Leaf (Linear (mkT [2; 3] (repeat 1%Z 6)) None)] in
  let x := mkT [1; 2] [1; 2]%Z in typed m [2] [2] /\ no_single m x /\ ~ reshapes m.
Proof. exact rejected_case. Qed.
Example C64_exact_case : let m := Skip (Seq true [Leaf (Linear (mkT [4; 2] (repeat 1%Z 8)) None)]) in let x := mkT [1; 2] [1; 2]%Z in
  typed m [2] [6] /\ map (width m x) (seq 0 8) = [None; None; None; Some 2; None; None; Some 2; None].
Proof. exact exact_case. Qed.
