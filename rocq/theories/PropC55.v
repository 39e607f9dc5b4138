(** C55, C56: one layer object at several positions of a network. *)
From Coq Require Import List Arith ZArith Lia.
From Verif Require Import Scalar Tensor Conv Abstract Simple LinearLayer ConvLayer PoolLayer Module Spec Domain HooksSpec Objects ObjectsSpec ObjBase ObjFwd ObjMain ObjParams Params Examples ObjWitness.
Import ListNotations.
Local Open Scope nat_scope.

(** C55, the full claim: the result of every method is that of the network in which the shared objects
    are replaced by copies ([erase m]).  It holds for forward, jvp and jmp with a matrix, whatever is
    shared and whatever calls were made before (g is any content of the mutable attributes) *)
Theorem C55_forward :
  forall (K : Type) (N : Num K) (H : nat -> list nat) (m : node K) (g : heap K) (h : st K) (x : tensor K),
  snd (oforward H m g x) = snd (forward (erase m) h x).
Proof. exact (fun K N H m g h x => oforward_pure H m g h x). Qed.
Print Assumptions C55_forward.
Theorem C55_jvp :
  forall (K : Type) (N : Num K) (H : nat -> list nat) (m : node K) (g : heap K) (h : st K) (x v : tensor K) (val : option (tensor K)) (w : wrt),
  snd (ojvp H m g x val v w) = snd (jvp (erase m) h x val v w).
Proof. exact (fun K N H m g h x v val w => ojvp_any H m g h x val v w). Qed.
Print Assumptions C55_jvp.
Theorem C55_jmp :
  forall (K : Type) (N : Num K) (H : nat -> list nat) (m : node K) (g : heap K) (h : st K) (x M : tensor K) (w : wrt),
  answers (erase m) ->
  snd (ojmp H m g x None (Some M) w) = snd (jmp (erase m) h x None (Some M) w).
Proof. exact (fun K N H m g h x M w A => ojmp_any H m A g h x None M w (or_introl eq_refl)). Qed.
Print Assumptions C55_jmp.
(** all products hold when the sharing is harmless ([sharing_ok]); missing: other sharings, where the
    claim fails, see below *)
Theorem C55_products_partial :
  forall (K : Type) (N : Num K) (H : nat -> list nat) (m : node K),
  registered H m -> sharing_ok m -> forall (g : heap K) (h : st K) (x : tensor K),
  (forall v w, snd (ovjp H m g x None v w) = snd (vjp (erase m) h x None v w)) /\
  (forall v w, snd (omjp H m g x None v w) = snd (mjp (erase m) h x None v w)) /\
  (forall w, snd (ojacobian H m g x None w) = snd (jacobian (erase m) h x None w)) /\
  (forall v w, snd (ojmp H m g x None v w) = snd (jmp (erase m) h x None v w)) /\
  (forall v w fd td db, snd (ojTmjp H m g x None v w fd td db) = snd (jTmjp (erase m) h x None v w fd td db)) /\
  (forall v w fd td db, snd (ojmjTp H m g x None v w fd td db) = snd (jmjTp (erase m) h x None v w fd td db)).
Proof. exact (fun K N H m R S g h x => none_products H m R S g h x). Qed.
Print Assumptions C55_products_partial.
(** the same with val=model(x), right after that call *)
Theorem C55_after_partial :
  forall (K : Type) (N : Num K) (H : nat -> list nat) (m : node K) (g : heap K) (h : st K) (x y : tensor K),
  registered H m -> sharing_ok m -> snd (call H (oforward H) m g x) = Ok y ->
  let g1 := fst (call H (oforward H) m g x) in let h1 := fst (forward (erase m) h x) in
  (forall v w, snd (ovjp H m g1 x (Some y) v w) = snd (vjp (erase m) h1 x (Some y) v w)) /\
  (forall v w, snd (omjp H m g1 x (Some y) v w) = snd (mjp (erase m) h1 x (Some y) v w)) /\
  (forall w, snd (ojacobian H m g1 x (Some y) w) = snd (jacobian (erase m) h1 x (Some y) w)) /\
  (forall v w, snd (ojmp H m g1 x (Some y) v w) = snd (jmp (erase m) h1 x (Some y) v w)) /\
  (forall v w fd td db, snd (ojTmjp H m g1 x (Some y) v w fd td db) = snd (jTmjp (erase m) h1 x (Some y) v w fd td db)) /\
  (forall v w fd td db, snd (ojmjTp H m g1 x (Some y) v w fd td db) = snd (jmjTp (erase m) h1 x (Some y) v w fd td db)).
Proof. exact (fun K N H m g h x y R S E => after_products H m g h x y (sharing_sep H m R S) E). Qed.
Print Assumptions C55_after_partial.
(** a network of distinct objects is such a network *)
Theorem C55_distinct : forall (K : Type) (m : node K), NoDup (ids m) -> sharing_ok m.
Proof. exact (fun K m N => unshared m N). Qed.
Print Assumptions C55_distinct.
Example C55_case : registered hH netH /\ sharing_ok netH /\ objects netH /\ typed (erase netH) [1] [2] /\ ~ NoDup (ids netH) /\
  snd (ovjp hH netH heap0 (tz [1; 1] [3]%Z) None (tz [1; 2] [1; 5]%Z) Weight) = Ok (Some (tz [1; 3] [(-3); 6; 0]%Z)) /\
  snd (call hH (oforward hH) netH heap0 (tz [1; 1] [3]%Z)) = Ok (tz [1; 2] [(-6); 0]%Z).
Proof.
  split; [exact netH_registered|]. split; [exact netH_sharing|]. split; [exact netH_objects|]. split; [exact netH_typed|]. split.
  - intros J. apply (NoDup_count_occ Nat.eq_dec) with (x := 8) in J. cbn in J. lia.
  - split; vm_compute; reflexivity.
Qed.

(** an activation object used twice in one Sequential: the gradient with respect to the parameters is
    wrong, silently *)
Theorem C55_refuted_activation : exists (H : nat -> list nat) (m : node Z) (x v u u' : tensor Z),
  objects m /\ registered H m /\ typed (erase m) [1] [1] /\ NoDup (stateful m) /\
  snd (ovjp H m heap0 x None v Weight) = Ok (Some u) /\ snd (vjp (erase m) st0 x None v Weight) = Ok (Some u') /\ u <> u'.
Proof.
  exists hT, netT, (tz [1; 1] [2]%Z), (tz [1; 1] [1]%Z). do 2 eexists. split; [exact netT_objects|]. split; [exact netT_registered|]. split; [exact netT_typed|].
  split; [repeat constructor; cbn; tauto|]. split; [vm_compute; reflexivity|]. split; [vm_compute; reflexivity|discriminate].
Qed.
Print Assumptions C55_refuted_activation.
(** and with respect to the input *)
Theorem C55_refuted_activation_input : exists (H : nat -> list nat) (m : node Z) (x v u u' : tensor Z),
  objects m /\ registered H m /\ typed (erase m) [1] [1] /\ NoDup (stateful m) /\
  snd (ovjp H m heap0 x None v Input) = Ok (Some u) /\ snd (vjp (erase m) st0 x None v Input) = Ok (Some u') /\ u <> u'.
Proof.
  exists hT3, netT3, (tz [1; 1] [2]%Z), (tz [1; 1] [1]%Z). do 2 eexists. split; [exact netT3_objects|]. split; [exact netT3_registered|]. split; [exact netT3_typed|].
  split; [repeat constructor; cbn; tauto|]. split; [vm_compute; reflexivity|]. split; [vm_compute; reflexivity|discriminate].
Qed.
Print Assumptions C55_refuted_activation_input.
(** an activation object of a Sequential that is also used inside a nested one; no list of modules has
    a repetition *)
Theorem C55_refuted_nested : exists (H : nat -> list nat) (m : node Z) (x v u u' : tensor Z),
  objects m /\ registered H m /\ typed (erase m) [1] [1] /\ NoDup (stateful m) /\ every_seq (fun _ _ ms => NoDup (map oid ms)) m /\
  snd (ovjp H m heap0 x None v Weight) = Ok (Some u) /\ snd (vjp (erase m) st0 x None v Weight) = Ok (Some u') /\ u <> u'.
Proof.
  exists hI, netI, (tz [1; 1] [2]%Z), (tz [1; 1] [1]%Z). do 2 eexists. split; [exact netI_objects|]. split; [exact netI_registered|]. split; [exact netI_typed|].
  split; [repeat constructor; cbn; intuition discriminate|]. split; [cbn; repeat split; repeat constructor; cbn; intuition discriminate|].
  split; [vm_compute; reflexivity|]. split; [vm_compute; reflexivity|discriminate].
Qed.
Print Assumptions C55_refuted_nested.
(** a Sequential used in two places *)
Theorem C55_refuted_block : exists (H : nat -> list nat) (m : node Z) (x v u u' : tensor Z),
  objects m /\ registered H m /\ typed (erase m) [1] [1] /\
  every_seq (fun _ _ ms => NoDup (map oid ms) /\ forall c z, In c ms -> In z (inner c) -> ~ In z (map oid ms)) m /\
  snd (ovjp H m heap0 x None v Weight) = Ok (Some u) /\ snd (vjp (erase m) st0 x None v Weight) = Ok (Some u') /\ u <> u'.
Proof.
  exists hK, netK, (tz [1; 1] [(-2)]%Z), (tz [1; 1] [1]%Z). do 2 eexists. split; [exact netK_objects|]. split; [exact netK_registered|]. split; [exact netK_typed|].
  split; [cbn; repeat split; try (repeat constructor; cbn; intuition discriminate); intros c z Ic; repeat destruct Ic as [<-|Ic]; try contradiction; cbn; intuition (subst; discriminate)|].
  split; [vm_compute; reflexivity|]. split; [vm_compute; reflexivity|discriminate].
Qed.
Print Assumptions C55_refuted_block.
(** a MaxPool2d used in two places *)
Theorem C55_refuted_pool : exists (H : nat -> list nat) (m : node Z) (x v u u' : tensor Z),
  objects m /\ registered H m /\ typed (erase m) [1; 1; 4] [1; 1; 2] /\
  every_seq (fun _ _ ms => NoDup (map oid ms) /\ forall c z, In c ms -> In z (inner c) -> ~ In z (map oid ms)) m /\
  snd (ovjp H m heap0 x None v Input) = Ok (Some u) /\ snd (vjp (erase m) st0 x None v Input) = Ok (Some u') /\ u <> u'.
Proof.
  exists hQ, netQ, xQ, (tz [1; 2] [1; 10]%Z). do 2 eexists. split; [exact netQ_objects|]. split; [exact netQ_registered|]. split; [exact netQ_typed|].
  split; [cbn; repeat split; try (repeat constructor; cbn; intuition discriminate); intros c z Ic; repeat destruct Ic as [<-|Ic]; try contradiction; cbn; intuition (subst; discriminate)|].
  split; [vm_compute; reflexivity|]. split; [vm_compute; reflexivity|discriminate].
Qed.
Print Assumptions C55_refuted_pool.

(** C56: get_weight() lists every parameter object once, while the products with respect to the weight
    have one block for each position.  The sizes agree exactly when no object with parameters occurs twice *)
Theorem C56_size :
  forall (K : Type) (N : Num K) (m : node K) (w : tensor K),
  objects m -> sized (erase m) -> oget_weight m = Ok w ->
  wf w /\ exists n, shape w = [n] /\ n <= n_params (erase m) /\ (n = n_params (erase m) <-> NoDup (with_params m)).
Proof. exact (fun K N m w => oweight_size m w). Qed.
Print Assumptions C56_size.
Example C56_case : objects netH /\ sized (erase netH) /\ oget_weight netH = Ok (tz [2] [2; (-1)]%Z) /\ n_params (erase netH) = 3.
Proof.
  split; [exact netH_objects|]. split; [exact (proj1 Params.typed_sized _ _ _ netH_typed)|]. split; reflexivity.
Qed.
(** so the gradient cannot be paired with get_weight() *)
Theorem C56_refuted_tied : exists (H : nat -> list nat) (m : node Z) (x v w u : tensor Z),
  objects m /\ registered H m /\ sharing_ok m /\ typed (erase m) [1] [2] /\ oget_weight m = Ok w /\
  snd (ovjp H m heap0 x None v Weight) = Ok (Some u) /\ shape w = [2] /\ shape u = [1; 3].
Proof.
  exists hH, netH, (tz [1; 1] [3]%Z), (tz [1; 2] [1; 5]%Z). do 2 eexists. split; [exact netH_objects|]. split; [exact netH_registered|].
  split; [exact netH_sharing|]. split; [exact netH_typed|]. split; [reflexivity|]. split; [vm_compute; reflexivity|]. split; reflexivity.
Qed.
Print Assumptions C56_refuted_tied.
