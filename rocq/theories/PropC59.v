(** Properties C59, C60 and C61: storages, views and in-place operations. *)
From Coq Require Import List Arith ZArith Lia.
From Verif Require Import Scalar Tensor Conv Abstract Simple LinearLayer ConvLayer PoolLayer Module Spec Domain HooksSpec Storage StorageSpec StorageMain Examples StorageWitness.
Import ListNotations.
Local Open Scope nat_scope.
Local Open Scope list_scope.

(** C59: a call of any method returns the values of Module.v and changes no tensor the caller has, whatever
    tensors share storage and whichever reshapes are views *)
Theorem C59_values :
  forall (K : Type) (N : Num K) (CR : CRing K) (cg : ref -> bool) (m : module K) (g : mem K) (s : hst) (c : call ref hvalue) (g' : mem K) (s' : hst) (r : res hvalue),
  answers m -> live g (locs s) -> live g (clocs c) -> hrun cg m g s c = (g', s', r) ->
  vrun m (er g s) (creads g c) = (er g' s', rreads g' r).
Proof. exact (fun K N CR cg m g s c g' s' r => run_values cg m g s c g' s' r). Qed.
Print Assumptions C59_values.
Theorem C59_frame :
  forall (K : Type) (N : Num K) (CR : CRing K) (cg : ref -> bool) (m : module K) (g : mem K) (s : hst) (c : call ref hvalue) (g' : mem K) (s' : hst) (r : res hvalue),
  answers m -> live g (locs s) -> live g (clocs c) -> hrun cg m g s c = (g', s', r) ->
  (forall t, rl t < len g -> rd g' t = rd g t) /\ touched g' = touched g.
Proof. exact (fun K N CR cg m g s c g' s' r => run_frame cg m g s c g' s' r). Qed.
Print Assumptions C59_frame.
(** a session of any length: all results, read at its end, are those of Module.v *)
Theorem C59_session :
  forall (K : Type) (N : Num K) (CR : CRing K) (cg : ref -> bool) (m : module K) (g : mem K) (s : hst) (cs : list (call ref hvalue)) (g' : mem K) (s' : hst) (rs : list (res hvalue)),
  answers m -> live g (locs s) -> session cg m g s cs g' s' rs ->
  (forall t, rl t < len g -> rd g' t = rd g t) /\ touched g' = touched g /\ len g <= len g' /\
  live g' (locs s') /\ Forall (fun r => live g' (rlocs r)) rs /\
  vsession m (er g s) (map (creads g') cs) = (er g' s', map (rreads g') rs).
Proof. exact (fun K N CR cg m g s cs g' s' rs => session_ok cg m g s cs g' s' rs). Qed.
Print Assumptions C59_session.
Example C59_case : answers netA /\ live gA (locs hst0) /\
  exists g' s' y r1 r2, session (fun _ => true) netA gA hst0 callsA g' s' [Ok (HT y); Ok (HT r1); Ok (HT r2)] /\
  rd g' y = tz [2; 2] [36; 9; 32; 21]%Z /\ shape (rd g' r1) = [2; 15] /\ shape (rd g' r2) = [2; 2; 2] /\ touched g' = false.
Proof. exact sessionA. Qed.

(** C60, the full claim: the tensor a product returns belongs to the caller, who may change it in place without
    changing the model or any tensor they had before.  This holds for every tensor that does not share storage
    with the vector or matrix that was multiplied, and for the parameters unless the product is with respect to
    the input and the matrix is None *)
Theorem C60_result_partial :
  forall (K : Type) (N : Num K) (CR : CRing K) (cg : ref -> bool) (m : module K) (g : mem K) (s : hst) (c : call ref hvalue) (g' : mem K) (s' : hst) (q : ref) (vs : list K),
  answers m -> live g (locs s) -> live g (clocs c) -> product c -> hrun cg m g s c = (g', s', Ok (HT q)) ->
  (cwrt c = Input -> forall l, In l (vlocs (carg c)) -> ~ In l (locs s) /\ l <> rl (cx c)) ->
  er (write g' q vs) s' = er g' s' /\
  ((cwrt c = Input -> exists a, carg c = HT a /\ ordinary g a) -> touched (write g' q vs) = touched g) /\
  (forall t, rl t < len g -> (cwrt c = Input -> ~ In (rl t) (vlocs (carg c))) -> rd (write g' q vs) t = rd g t).
Proof. exact (fun K N CR cg m g s c g' s' q vs => result_free cg m g s c g' s' q vs). Qed.
Print Assumptions C60_result_partial.
(** where the storage of a result, or of a list of results, comes from *)
Theorem C60_apart :
  forall (K : Type) (N : Num K) (CR : CRing K) (cg : ref -> bool) (m : module K) (g : mem K) (s : hst) (c : call ref hvalue) (g' : mem K) (s' : hst) (q : hvalue),
  answers m -> live g (locs s) -> live g (clocs c) -> product c -> hrun cg m g s c = (g', s', Ok q) ->
  forall l, In l (vlocs q) -> (len g <= l /\ ~ In l (locs s')) \/ (cwrt c = Input /\ In l (vlocs (carg c))).
Proof. exact (fun K N CR cg m g s c g' s' q => run_apart cg m g s c g' s' q). Qed.
Print Assumptions C60_apart.
Example C60_case : answers netA /\ live gA (locs hst0) /\ live gA (clocs callA) /\ product callA /\
  exists g' s' q, hrun (fun _ => true) netA gA hst0 callA = (g', s', Ok (HT q)) /\ ordinary gA vA /\ carg callA = HT vA /\ cwrt callA = Input /\
  (forall l, In l (vlocs (carg callA)) -> ~ In l (locs hst0) /\ l <> rl (cx callA)) /\ length (locs s') = 10.
Proof. exact resultA. Qed.
(** it fails for the Jacobian of a Linear layer with respect to its input and batch size 1, which is a view of
    the weight: the caller's in-place operation changes the model *)
Theorem C60_parameter_refuted : exists (cg : ref -> bool) (m : module Z) (g : mem Z) (s : hst) (c : call ref hvalue) (g' : mem Z) (s' : hst) (q : ref) (vs : list Z),
  answers m /\ live g (locs s) /\ live g (clocs c) /\ product c /\ hrun cg m g s c = (g', s', Ok (HT q)) /\
  NoDup (data (rix q)) /\ touched g = false /\ touched (write g' q vs) = true.
Proof. exact jacobian_view. Qed.
Print Assumptions C60_parameter_refuted.
(** and for a Reshape layer, whose vjp returns a view of the vector it was given *)
Theorem C60_argument_refuted : exists (m : module Z) (g : mem Z) (s : hst) (c : call ref hvalue) (g' : mem Z) (s' : hst) (q v : ref) (vs : list Z),
  answers m /\ live g (locs s) /\ live g (clocs c) /\ product c /\ carg c = HT v /\ ordinary g v /\
  hrun (fun _ => true) m g s c = (g', s', Ok (HT q)) /\ rd (write g' q vs) v <> rd g v.
Proof. exact argument_view. Qed.
Print Assumptions C60_argument_refuted.

(** C61, the full claim: the results of a program that uses the model do not depend on the caller's in-place
    operations, other than through the values passed to the calls.  This holds when the caller leaves the inputs
    x of earlier calls and the outputs of forward alone *)
Theorem C61_program_partial :
  forall (K : Type) (N : Num K) (CR : CRing K) (cg : ref -> bool) (m : module K) (g : mem K) (s : hst) (free : list nat) (cs : list (call (tensor K) (value K))) (g' : mem K) (s' : hst) (rs : list (res (value K))),
  answers m -> live g (locs s) -> (forall l, In l free -> l < len g /\ ~ In l (locs s)) ->
  program cg m g s free cs g' s' rs ->
  vsession m (er g s) cs = (er g' s', rs) /\ touched g' = touched g.
Proof. exact (fun K N CR cg m g s free cs g' s' rs => program_ok cg m g s free cs g' s' rs). Qed.
Print Assumptions C61_program_partial.
(** the model keeps the input and new storages, no other tensor of the caller *)
Theorem C61_kept :
  forall (K : Type) (N : Num K) (CR : CRing K) (cg : ref -> bool) (m : module K) (g : mem K) (s : hst) (c : call ref hvalue) (g' : mem K) (s' : hst) (r : res hvalue),
  answers m -> live g (locs s) -> live g (clocs c) -> hrun cg m g s c = (g', s', r) ->
  forall l, In l (locs s') -> In l (locs s) \/ l = rl (cx c) \/ len g <= l.
Proof. exact (fun K N CR cg m g s c g' s' r => run_state cg m g s c g' s' r). Qed.
Print Assumptions C61_kept.
(** one call before and after an in-place operation on a tensor the model does not hold *)
Theorem C61_call :
  forall (K : Type) (N : Num K) (CR : CRing K) (cg : ref -> bool) (m : module K) (g : mem K) (s : hst) (a : ref) (vs : list K) (c : call ref hvalue),
  answers m -> live g (locs s) -> live g (clocs c) -> ~ In (rl a) (locs s) -> ~ In (rl a) (clocs c) -> par a = false ->
  forall g1 s1 r1 g2 s2 r2, hrun cg m g s c = (g1, s1, r1) -> hrun cg m (write g a vs) s c = (g2, s2, r2) ->
  er g2 s2 = er g1 s1 /\ rreads g2 r2 = rreads g1 r1 /\ touched g2 = touched g1.
Proof. exact (fun K N CR cg m g s a vs c => caller_free cg m g s a vs c). Qed.
Print Assumptions C61_call.
(** forward, then an in-place operation on the residual, a product, an in-place operation on its result, a product *)
Example C61_case : exists cs g' s' rs, program (fun _ => true) netA gA hst0 [1] cs g' s' rs /\ length cs = 3 /\
  Forall (fun r => exists t, r = Ok (VT t)) rs /\ (forall l, In l [1] -> l < len gA /\ ~ In l (locs hst0)).
Proof. exact programA. Qed.
(** it fails for the output of forward and for the input: the next product, called with copies of both, changes *)
Theorem C61_output_refuted : exists (m : module Z) (g : mem Z) (x y y' v : ref) (vs : list Z) (g1 : mem Z) (s1 : hst) g2 s2 t2 g3 s3 t3,
  answers m /\ live g [rl x; rl y'; rl v] /\ hrun (fun _ => true) m g hst0 (CForward x) = (g1, s1, Ok (HT y)) /\
  rd g1 y' = rd g1 y /\ rl y <> rl x /\ rl y <> rl y' /\ rl y <> rl v /\
  hrun (fun _ => true) m g1 s1 (CVjp x (Some y') v Input) = (g2, s2, Ok (HT t2)) /\
  hrun (fun _ => true) m (write g1 y vs) s1 (CVjp x (Some y') v Input) = (g3, s3, Ok (HT t3)) /\
  rd g3 t3 <> rd g2 t2.
Proof. exact output_kept. Qed.
Print Assumptions C61_output_refuted.
Theorem C61_input_refuted : exists (m : module Z) (g : mem Z) (x x' y v : ref) (vs : list Z) (g1 : mem Z) (s1 : hst) g2 s2 t2 g3 s3 t3,
  answers m /\ live g [rl x; rl x'; rl v] /\ hrun (fun _ => true) m g hst0 (CForward x) = (g1, s1, Ok (HT y)) /\
  rd g1 x' = rd g1 x /\ rl x <> rl x' /\ rl x <> rl y /\ rl x <> rl v /\
  hrun (fun _ => true) m g1 s1 (CVjp x' (Some y) v Weight) = (g2, s2, Ok (HT t2)) /\
  hrun (fun _ => true) m (write g1 x vs) s1 (CVjp x' (Some y) v Weight) = (g3, s3, Ok (HT t3)) /\
  rd g3 t3 <> rd g2 t2.
Proof. exact input_kept. Qed.
Print Assumptions C61_input_refuted.
