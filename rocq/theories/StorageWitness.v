(** Concrete sessions of the storage model. *)
From Coq Require Import List Arith ZArith Lia.
From Verif Require Import Scalar Tensor Conv Abstract Simple LinearLayer ConvLayer PoolLayer Module HooksSpec Storage StorageSpec StorageMain Examples.
Import ListNotations.
Local Open Scope nat_scope.
Local Open Scope list_scope.

(** a tensor object with its own storage *)
Definition own (l : nat) (s : list nat) : ref := mkref l (mkT s (map Some (seq 0 (numel s)))) false.
(** x, a vector, and a matrix *)
Definition gA : mem Z := mkmem [[1; 2; 3; (-1)]; [1; 5; 2; (-2)]; [1; 2; 3; 4; 1; 0; 0; 1]]%Z false.
Definition xrA : ref := own 0 [2; 2].
Definition vA : ref := own 1 [2; 2].
Definition mA : ref := own 2 [2; 2; 2].
Definition callA : call ref hvalue := CVjp xrA None vA Input.
Definition callsA : list (call ref hvalue) :=
  [CForward xrA; CVjp xrA None vA Weight; CJmjTp xrA None (HT mA) Input false false false].

Ltac livet := intros ? HH; vm_compute in HH; vm_compute; lia.
Lemma sessionA : answers netA /\ live gA (locs hst0) /\
  exists g' s' y r1 r2, session (fun _ => true) netA gA hst0 callsA g' s' [Ok (HT y); Ok (HT r1); Ok (HT r2)] /\
  rd g' y = tz [2; 2] [36; 9; 32; 21]%Z /\ shape (rd g' r1) = [2; 15] /\ shape (rd g' r2) = [2; 2; 2] /\ touched g' = false.
Proof.
  split; [cbn; tauto|]. split; [livet|]. do 5 eexists. split.
  - eapply s_call; [livet|vm_compute; reflexivity|]. eapply s_call; [livet|vm_compute; reflexivity|].
    eapply s_call; [livet|vm_compute; reflexivity|]. apply s_end.
  - repeat split; vm_compute; reflexivity.
Qed.
Lemma resultA : answers netA /\ live gA (locs hst0) /\ live gA (clocs callA) /\ product callA /\
  exists g' s' q, hrun (fun _ => true) netA gA hst0 callA = (g', s', Ok (HT q)) /\ ordinary gA vA /\ carg callA = HT vA /\ cwrt callA = Input /\
  (forall l, In l (vlocs (carg callA)) -> ~ In l (locs hst0) /\ l <> rl (cx callA)) /\ length (locs s') = 10.
Proof.
  split; [cbn; tauto|]. split; [livet|]. split; [livet|]. split; [exact I|]. do 3 eexists.
  split; [vm_compute; reflexivity|]. split.
  - split; [reflexivity|]. split.
    + vm_compute. repeat constructor; cbn; intuition discriminate.
    + intros o Ho. vm_compute in Ho. intuition subst; eexists; (split; [reflexivity|vm_compute; lia]).
  - split; [reflexivity|]. split; [reflexivity|]. split; [|reflexivity]. intros l [<-|[]]. split; [intros []|discriminate].
Qed.
Lemma programA : exists cs g' s' rs, program (fun _ => true) netA gA hst0 [1] cs g' s' rs /\ length cs = 3 /\
  Forall (fun r => exists t, r = Ok (VT t)) rs /\ (forall l, In l [1] -> l < len gA /\ ~ In l (locs hst0)).
Proof.
  do 4 eexists. split; [|split; [|split]].
  - eapply (p_call _ _ _ _ _ (CForward xrA)); [livet|vm_compute; reflexivity|].
    eapply (p_write _ _ _ _ _ vA [7; 7; 7; 7]%Z); [vm_compute; auto|reflexivity|].
    eapply (p_call _ _ _ _ _ (CVjp xrA (Some vA) vA Weight)); [livet|vm_compute; reflexivity|].
    match goal with |- program _ _ ?g _ ?fr _ _ _ _ => eapply (p_write _ _ g _ fr (own (len g - 1) [1]) [9]%Z); [vm_compute; auto|reflexivity|] end.
    eapply (p_call _ _ _ _ _ (CJvp xrA (Some vA) vA Input)); [livet|vm_compute; reflexivity|].
    apply p_end.
  - reflexivity.
  - repeat constructor; eexists; vm_compute; reflexivity.
  - intros l [<-|[]]. split; [vm_compute; lia|intros []].
Qed.

Definition linW : module Z := Leaf (Linear (tz [2; 1] [2; 3]%Z) None).
Lemma jacobian_view : exists (cg : ref -> bool) (m : module Z) (g : mem Z) (s : hst) (c : call ref hvalue) (g' : mem Z) (s' : hst) (q : ref) (vs : list Z),
  answers m /\ live g (locs s) /\ live g (clocs c) /\ product c /\ hrun cg m g s c = (g', s', Ok (HT q)) /\
  NoDup (data (rix q)) /\ touched g = false /\ touched (write g' q vs) = true.
Proof.
  exists (fun _ => true), linW, (mkmem [[5]]%Z false), hst0, (CJacobian (own 0 [1; 1]) None Input). do 3 eexists. exists [0; 0]%Z.
  split; [exact I|]. split; [livet|]. split; [livet|]. split; [exact I|]. split; [vm_compute; reflexivity|].
  split; [vm_compute; repeat constructor; cbn; intuition discriminate|]. split; reflexivity.
Qed.
Lemma argument_view : exists (m : module Z) (g : mem Z) (s : hst) (c : call ref hvalue) (g' : mem Z) (s' : hst) (q v : ref) (vs : list Z),
  answers m /\ live g (locs s) /\ live g (clocs c) /\ product c /\ carg c = HT v /\ ordinary g v /\
  hrun (fun _ => true) m g s c = (g', s', Ok (HT q)) /\ rd (write g' q vs) v <> rd g v.
Proof.
  exists (Leaf (Reshape [1; 2]%Z)), (mkmem [[5; 6]; [1; 2]]%Z false), hst0, (CVjp (own 0 [1; 2]) None (own 1 [1; 2]) Input).
  do 3 eexists. exists (own 1 [1; 2]), [0; 0]%Z.
  split; [exact I|]. split; [livet|]. split; [livet|]. split; [exact I|]. split; [reflexivity|]. split.
  - split; [reflexivity|]. split.
    + vm_compute. repeat constructor; cbn; intuition discriminate.
    + intros o Ho. vm_compute in Ho. intuition subst; eexists; (split; [reflexivity|vm_compute; lia]).
  - split; [vm_compute; reflexivity|vm_compute; discriminate].
Qed.

Definition relW : module Z := Seq true [Leaf (Linear (tz [1; 1] [2]%Z) None); Leaf (Act ReLU)].
Lemma output_kept : exists (m : module Z) (g : mem Z) (x y y' v : ref) (vs : list Z) (g1 : mem Z) (s1 : hst) g2 s2 t2 g3 s3 t3,
  answers m /\ live g [rl x; rl y'; rl v] /\ hrun (fun _ => true) m g hst0 (CForward x) = (g1, s1, Ok (HT y)) /\
  rd g1 y' = rd g1 y /\ rl y <> rl x /\ rl y <> rl y' /\ rl y <> rl v /\
  hrun (fun _ => true) m g1 s1 (CVjp x (Some y') v Input) = (g2, s2, Ok (HT t2)) /\
  hrun (fun _ => true) m (write g1 y vs) s1 (CVjp x (Some y') v Input) = (g3, s3, Ok (HT t3)) /\
  rd g3 t3 <> rd g2 t2.
Proof.
  exists relW, (mkmem [[3]; [6]; [1]]%Z false), (own 0 [1; 1]). eexists. exists (own 1 [1; 1]), (own 2 [1; 1]), [(-1)]%Z. do 8 eexists.
  split; [cbn; tauto|]. split; [livet|]. split; [vm_compute; reflexivity|]. split; [reflexivity|].
  split; [discriminate|]. split; [discriminate|]. split; [discriminate|].
  split; [vm_compute; reflexivity|]. split; [vm_compute; reflexivity|]. vm_compute. discriminate.
Qed.
Lemma input_kept : exists (m : module Z) (g : mem Z) (x x' y v : ref) (vs : list Z) (g1 : mem Z) (s1 : hst) g2 s2 t2 g3 s3 t3,
  answers m /\ live g [rl x; rl x'; rl v] /\ hrun (fun _ => true) m g hst0 (CForward x) = (g1, s1, Ok (HT y)) /\
  rd g1 x' = rd g1 x /\ rl x <> rl x' /\ rl x <> rl y /\ rl x <> rl v /\
  hrun (fun _ => true) m g1 s1 (CVjp x' (Some y) v Weight) = (g2, s2, Ok (HT t2)) /\
  hrun (fun _ => true) m (write g1 x vs) s1 (CVjp x' (Some y) v Weight) = (g3, s3, Ok (HT t3)) /\
  rd g3 t3 <> rd g2 t2.
Proof.
  exists relW, (mkmem [[3]; [3]; [1]]%Z false), (own 0 [1; 1]), (own 1 [1; 1]). eexists. exists (own 2 [1; 1]), [5]%Z. do 8 eexists.
  split; [cbn; tauto|]. split; [livet|]. split; [vm_compute; reflexivity|]. split; [reflexivity|].
  split; [discriminate|]. split; [discriminate|]. split; [discriminate|].
  split; [vm_compute; reflexivity|]. split; [vm_compute; reflexivity|]. vm_compute. discriminate.
Qed.
