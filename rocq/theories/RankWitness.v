(** Concrete cases for C67. *)
From Coq Require Import String Ascii List Arith ZArith Lia Bool.
From Verif Require Import Scalar Sums Tensor Conv Abstract Simple LinearLayer ConvLayer PoolLayer Module Spec Domain Jac Calls RankSpec.
Import ListNotations.
Local Open Scope nat_scope.
Local Open Scope list_scope.

(** Linear(2, 1) - Flatten - Linear(3, 2) on samples of shape (3, 2) *)
Definition seq_net : module Z :=
  Seq true [Leaf (Linear (mkT [1; 2] [1; 2]%Z) None); Leaf Flatten; Leaf (Linear (mkT [2; 3] [1; 0; 2; 0; 1; 1]%Z) None)].
Definition seq_x : tensor Z := mkT [1; 3; 2] [1; 2; 3; 4; 5; 6]%Z.
Definition seq_v : tensor Z := mkT [1; 2] [1; 1]%Z.
Lemma seq_case : (exists y, snd (forward seq_net (init seq_net) seq_x) = Ok y /\ shape y = [1; 2]) /\
  misshaped Some (snd (vjp seq_net (init seq_net) seq_x None seq_v Input)) [1; 2] [1; 6] /\
  raises (snd (vjp seq_net (init seq_net) seq_x None seq_v Weight)).
Proof.
  split; [eexists; split; vm_compute; reflexivity|]. split; [|eexists; vm_compute; reflexivity].
  eexists. split; [vm_compute; reflexivity|]. split; [reflexivity|discriminate].
Qed.
(** Linear(2, 3) with bias on two positions *)
Lemma rank_case : let W := mkT [3; 2] [1; 2; 3; 4; 5; 6]%Z in let x := mkT [1; 2; 2] [1; 2; 3; 4]%Z in
  shape W = [3; 2] /\ bias_ok (Some (mkT [3] [0; 0; 1]%Z)) 3 /\ shape x = 1 :: [2] ++ [2] /\
  fwd (Leaf (Linear W (Some (mkT [3] [0; 0; 1]%Z)))) x = Ok (mkT [1; 2; 3] [5; 11; 18; 11; 25; 40]%Z).
Proof. cbv zeta. repeat split; vm_compute; reflexivity. Qed.
Lemma rank_one_case : let W := mkT [1; 2] [1; 2]%Z in let x := mkT [2; 1; 2] [1; 2; 3; 4]%Z in let v := mkT [2; 1] [1; -1]%Z in
  shape x = 2 :: [1] ++ [2] /\ numel [1] = 1 /\
  snd (vjp (Leaf (Linear W None)) (init (Leaf (Linear W None))) x None v Input) = Ok (Some (mkT [2; 2] [1; 2; -1; -2]%Z)).
Proof. cbv zeta. repeat split; vm_compute; reflexivity. Qed.
Lemma rank_one_column : let W := mkT [1; 2] [1; 2]%Z in let x := mkT [1; 3; 2] [1; 2; 3; 4; 5; 6]%Z in let v := mkT [1; 3] [1; 2; 3]%Z in
  shape x = 1 :: [3] ++ [2] /\ shape v = [1; numel [3] * 1] /\ numel [3] <> 1 /\
  snd (vjp (Leaf (Linear W None)) (init (Leaf (Linear W None))) x None v Input) = Ok (Some (mkT [1; 2] [6; 12]%Z)).
Proof. cbv zeta. repeat split; try (vm_compute; reflexivity). vm_compute. discriminate. Qed.
