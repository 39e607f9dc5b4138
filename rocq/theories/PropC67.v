(** C67: a Linear layer on inputs that are not (batch, features). *)
From Coq Require Import List Arith ZArith.
From Verif Require Import Scalar Sums Tensor Conv Abstract Simple Module Spec Domain Jac Calls RankSpec RankProofs RankProducts RankWitness.
Import ListNotations.
Local Open Scope nat_scope.
Local Open Scope list_scope.

(** forward maps the last dimension of an input of any rank, entry by entry *)
Theorem C67_forward : forall (K : Type) (N : Num K) (CR : CRing K) (W : tensor K) (bias : option (tensor K)) (x : tensor K) lead c1 c2,
  shape W = [c2; c1] -> bias_ok bias c2 -> shape x = lead ++ [c1] ->
  exists y, fwd (Leaf (Linear W bias)) x = Ok y /\ wf y /\ shape y = lead ++ [c2] /\
    forall n k, valid lead n -> k < c2 ->
      get n0 y (n ++ [k]) = nadd (bsum c1 (fun j => nmul (get n0 x (n ++ [j])) (get n0 W [k; j]))) (bias_at bias k).
Proof. exact (fun K N CR W bias x lead c1 c2 => lin_forward_any W bias x lead c1 c2). Qed.
Print Assumptions C67_forward.
(** seen on whole samples it is the affine map with the block matrix, so that [block] is its derivative with respect to the input *)
Theorem C67_affine : forall (K : Type) (N : Num K) (CR : CRing K) (W : tensor K) (bias : option (tensor K)) (x : tensor K) b l c1 c2,
  shape W = [c2; c1] -> bias_ok bias c2 -> shape x = b :: l ++ [c1] -> 0 < c1 -> 0 < c2 ->
  exists y, fwd (Leaf (Linear W bias)) x = Ok y /\ wf y /\ shape y = b :: l ++ [c2] /\
    forall q i, q < b -> i < numel l * c2 ->
      fl (numel l * c2) y q i =
      nadd (bsum (numel l * c1) (fun j => nmul (block W c1 c2 q i j) (fl (numel l * c1) x q j))) (bias_at bias (i mod c2)).
Proof. exact (fun K N CR W bias x b l c1 c2 => lin_forward_flat W bias x b l c1 c2). Qed.
Print Assumptions C67_affine.
(** on inputs that are not matrices the Jacobian and everything that concerns the parameters raises *)
Theorem C67_rejected : forall (K : Type) (N : Num K) (CR : CRing K) (W : tensor K) (bias : option (tensor K)) (x : tensor K) val mat v h fd td db w,
  length (shape x) <> 2 -> let m := Leaf (Linear W bias) in
  raises (snd (jacobian m h x val w)) /\ raises (snd (mjp m h x val None w)) /\ raises (snd (jmp m h x val None w)) /\
  raises (snd (vjp m h x val v Weight)) /\ raises (snd (jvp m h x val v Weight)) /\
  raises (snd (mjp m h x val (Some v) Weight)) /\ raises (snd (jmp m h x val (Some v) Weight)) /\
  raises (snd (jTmjp m h x val mat Weight fd td db)) /\ raises (snd (jmjTp m h x val mat Weight fd td db)).
Proof. exact (fun K N CR W bias x val mat v h fd td db w => rank_rejected W bias x val mat v h fd td db w). Qed.
Print Assumptions C67_rejected.
(** so do jTmjp and jmjTp without a matrix, and vjp and jvp with a vector that is not a matrix (one of the shape of the output, say) *)
Theorem C67_rejected_none : forall (K : Type) (N : Num K) (CR : CRing K) (W : tensor K) (bias : option (tensor K)) (x y : tensor K) val h fd td db c1 c2,
  length (shape x) <> 2 -> shape W = [c2; c1] -> let m := Leaf (Linear W bias) in fwd m x = Ok y -> val = None \/ val = Some y ->
  raises (snd (jTmjp m h x val VNone Input fd td db)) /\ raises (snd (jmjTp m h x val VNone Input fd td db)).
Proof. exact (fun K N CR W bias x y val h fd td db c1 c2 => rank_rejected_none W bias x y val h fd td db c1 c2). Qed.
Print Assumptions C67_rejected_none.
Theorem C67_rejected_vector : forall (K : Type) (N : Num K) (CR : CRing K) (W : tensor K) (bias : option (tensor K)) (x v : tensor K) val h,
  length (shape v) <> 2 -> let m := Leaf (Linear W bias) in
  raises (snd (vjp m h x val v Input)) /\ raises (snd (jvp m h x val v Input)).
Proof. exact (fun K N CR W bias x v val h => rank_vector W bias x v val h). Qed.
Print Assumptions C67_rejected_vector.
(** wanted: the products with respect to the input are right or raise, for all sizes.  True unless there are several positions and
    the layer has exactly one output (vjp, mjp, jTmjp) or exactly one input (jvp, jmp, jmjTp) *)
Theorem C67_backward_partial : forall (K : Type) (N : Num K) (CR : CRing K) (W : tensor K) (bias : option (tensor K)) (x y : tensor K) b l c1 c2 val h
    (v : tensor K) r (M R : tensor K) fd td db,
  shape W = [c2; c1] -> bias_ok bias c2 -> 0 < c1 -> 0 < c2 -> 0 < b -> shape x = b :: l ++ [c1] ->
  let m := Leaf (Linear W bias) in let J := block W c1 c2 in let t := numel l in fwd m x = Ok y -> val = None \/ val = Some y ->
  shape v = [b; t * c2] -> shape M = [b; r; t * c2] -> shape R = metric_shape fd b (t * c2) -> t = 1 \/ c2 <> 1 ->
  right_or_raises (snd (vjp m h x val v Input)) (Some (vJ b (t * c2) (t * c1) J v)) /\
  right_or_raises (snd (mjp m h x val (Some M) Input)) (Some (MJ b r (t * c2) (t * c1) J M)) /\
  right_or_raises (snd (jTmjp m h x val (VT R) Input fd td db)) (VT (pull b (t * c2) (t * c1) J fd td R)).
Proof. exact rank_backward_all. Qed.
Print Assumptions C67_backward_partial.
Theorem C67_forward_partial : forall (K : Type) (N : Num K) (CR : CRing K) (W : tensor K) (bias : option (tensor K)) (x y : tensor K) b l c1 c2 val h
    (v : tensor K) r (M R : tensor K) fd td db,
  shape W = [c2; c1] -> bias_ok bias c2 -> 0 < c1 -> 0 < c2 -> 0 < b -> shape x = b :: l ++ [c1] ->
  let m := Leaf (Linear W bias) in let J := block W c1 c2 in let t := numel l in fwd m x = Ok y -> val = None \/ val = Some y ->
  shape v = [b; t * c1] -> shape M = [b; t * c1; r] -> shape R = metric_shape fd b (t * c1) -> t = 1 \/ c1 <> 1 ->
  right_or_raises (snd (jvp m h x val v Input)) (Some (Jv b (t * c2) (t * c1) J v)) /\
  right_or_raises (snd (jmp m h x val (Some M) Input)) (Some (JM b (t * c2) (t * c1) r J M)) /\
  right_or_raises (snd (jmjTp m h x val (VT R) Input fd td db)) (VT (push b (t * c2) (t * c1) J fd td R)).
Proof. exact rank_forward_all. Qed.
Print Assumptions C67_forward_partial.
(** with one position nothing raises and everything is right *)
Theorem C67_one : forall (K : Type) (N : Num K) (CR : CRing K) (W : tensor K) (bias : option (tensor K)) (x y : tensor K) b l c1 c2 val h
    (v : tensor K) r (M R v' : tensor K) r' (M' R' : tensor K) fd td db,
  shape W = [c2; c1] -> bias_ok bias c2 -> 0 < c1 -> 0 < c2 -> 0 < b -> shape x = b :: l ++ [c1] ->
  let m := Leaf (Linear W bias) in let J := block W c1 c2 in let t := numel l in fwd m x = Ok y -> val = None \/ val = Some y -> t = 1 ->
  shape v = [b; t * c2] -> shape M = [b; r; t * c2] -> shape R = metric_shape fd b (t * c2) ->
  shape v' = [b; t * c1] -> shape M' = [b; t * c1; r'] -> shape R' = metric_shape fd b (t * c1) ->
  snd (vjp m h x val v Input) = Ok (Some (vJ b (t * c2) (t * c1) J v)) /\
  snd (mjp m h x val (Some M) Input) = Ok (Some (MJ b r (t * c2) (t * c1) J M)) /\
  snd (jTmjp m h x val (VT R) Input fd td db) = Ok (VT (pull b (t * c2) (t * c1) J fd td R)) /\
  snd (jvp m h x val v' Input) = Ok (Some (Jv b (t * c2) (t * c1) J v')) /\
  snd (jmp m h x val (Some M') Input) = Ok (Some (JM b (t * c2) (t * c1) r' J M')) /\
  snd (jmjTp m h x val (VT R') Input fd td db) = Ok (VT (push b (t * c2) (t * c1) J fd td R')).
Proof. exact rank_one_all. Qed.
Print Assumptions C67_one.
(** in the excluded cases every product raises nothing and returns a result of the wrong shape, that of a single position *)
Theorem C67_wrong_backward : forall (K : Type) (N : Num K) (CR : CRing K) (W : tensor K) (bias : option (tensor K)) (x y : tensor K) b l c1 c2 val h
    (v : tensor K) r (M R : tensor K) fd td db,
  shape W = [c2; c1] -> 0 < c1 -> 0 < c2 -> 0 < b -> shape x = b :: l ++ [c1] ->
  let m := Leaf (Linear W bias) in let t := numel l in fwd m x = Ok y -> val = None \/ val = Some y ->
  shape v = [b; t * c2] -> shape M = [b; r; t * c2] -> shape R = metric_shape fd b (t * c2) -> t <> 1 -> c2 = 1 ->
  misshaped Some (snd (vjp m h x val v Input)) [b; c1] [b; t * c1] /\
  misshaped Some (snd (mjp m h x val (Some M) Input)) [b; r; c1] [b; r; t * c1] /\
  misshaped VT (snd (jTmjp m h x val (VT R) Input fd td db)) (metric_shape td b c1) (metric_shape td b (t * c1)).
Proof. exact rank_wrong_backward_all. Qed.
Print Assumptions C67_wrong_backward.
Theorem C67_wrong_forward : forall (K : Type) (N : Num K) (CR : CRing K) (W : tensor K) (bias : option (tensor K)) (x y : tensor K) b l c1 c2 val h
    (v : tensor K) r (M R : tensor K) fd td db,
  shape W = [c2; c1] -> 0 < c1 -> 0 < c2 -> 0 < b -> shape x = b :: l ++ [c1] ->
  let m := Leaf (Linear W bias) in let t := numel l in fwd m x = Ok y -> val = None \/ val = Some y ->
  shape v = [b; t * c1] -> shape M = [b; t * c1; r] -> shape R = metric_shape fd b (t * c1) -> t <> 1 -> c1 = 1 ->
  misshaped Some (snd (jvp m h x val v Input)) [b; c2] [b; t * c2] /\
  misshaped Some (snd (jmp m h x val (Some M) Input)) [b; c2; r] [b; t * c2; r] /\
  misshaped VT (snd (jmjTp m h x val (VT R) Input fd td db)) (metric_shape td b c2) (metric_shape td b (t * c2)).
Proof. exact rank_wrong_forward_all. Qed.
Print Assumptions C67_wrong_forward.
(** the full claim is false: Linear(2, 1) - Flatten - Linear(3, 2) is a network with a working forward on samples of shape (3, 2);
    the vector-Jacobian product with respect to the input has 2 entries instead of 6, the one with respect to the parameters raises *)
Theorem C67_refuted : (exists y, snd (forward seq_net (init seq_net) seq_x) = Ok y /\ shape y = [1; 2]) /\
  misshaped Some (snd (vjp seq_net (init seq_net) seq_x None seq_v Input)) [1; 2] [1; 6] /\
  raises (snd (vjp seq_net (init seq_net) seq_x None seq_v Weight)).
Proof. exact seq_case. Qed.
Print Assumptions C67_refuted.
Example C67_case : let W := mkT [3; 2] [1; 2; 3; 4; 5; 6]%Z in let x := mkT [1; 2; 2] [1; 2; 3; 4]%Z in
  shape W = [3; 2] /\ bias_ok (Some (mkT [3] [0; 0; 1]%Z)) 3 /\ shape x = 1 :: [2] ++ [2] /\
  fwd (Leaf (Linear W (Some (mkT [3] [0; 0; 1]%Z)))) x = Ok (mkT [1; 2; 3] [5; 11; 18; 11; 25; 40]%Z).
Proof. exact rank_case. Qed.
Example C67_one_case : let W := mkT [1; 2] [1; 2]%Z in let x := mkT [2; 1; 2] [1; 2; 3; 4]%Z in let v := mkT [2; 1] [1; -1]%Z in
  shape x = 2 :: [1] ++ [2] /\ numel [1] = 1 /\
  snd (vjp (Leaf (Linear W None)) (init (Leaf (Linear W None))) x None v Input) = Ok (Some (mkT [2; 2] [1; 2; -1; -2]%Z)).
Proof. exact rank_one_case. Qed.
Example C67_wrong_case : let W := mkT [1; 2] [1; 2]%Z in let x := mkT [1; 3; 2] [1; 2; 3; 4; 5; 6]%Z in let v := mkT [1; 3] [1; 2; 3]%Z in
  shape x = 1 :: [3] ++ [2] /\ shape v = [1; numel [3] * 1] /\ numel [3] <> 1 /\
  snd (vjp (Leaf (Linear W None)) (init (Leaf (Linear W None))) x None v Input) = Ok (Some (mkT [1; 2] [6; 12]%Z)).
Proof. exact rank_one_column. Qed.
