(** C23, C24: the parameter vector. *)
From Coq Require Import List Arith ZArith Bool Lia.
From Verif Require Import Scalar Tensor Abstract Simple ConvLayer PoolLayer Module Spec Domain Trees Params Examples.
Import ListNotations.
Local Open Scope nat_scope.
Local Open Scope list_scope.

Theorem C23_set_get :
  forall (K : Type) (N : Num K) (m : module K) (w : tensor K),
  sized m -> params m <> [] -> shape w = [n_params m] -> wf w ->
  exists m', set_weight m w = (m', Ok tt) /\ arch m m' /\ sized m' /\ get_weight m' = Ok w.
Proof. exact (fun K N m w => set_get m w). Qed.
Print Assumptions C23_set_get.
Theorem C23_get_set :
  forall (K : Type) (N : Num K) (m : module K) (w : tensor K),
  sized m -> get_weight m = Ok w -> set_weight m w = (m, Ok tt).
Proof. exact (fun K N m w => get_set m w). Qed.
Print Assumptions C23_get_set.
Theorem C23_too_short :
  forall (K : Type) (N : Num K) (m : module K) (w : tensor K),
  sized m -> length (data w) < n_params m -> snd (set_weight m w) = Raise RuntimeError.
Proof. exact (fun K N m w => set_short m w). Qed.
Print Assumptions C23_too_short.
Theorem C23_extra_ignored :
  forall (K : Type) (N : Num K) (m : module K) (w r : list K),
  sized m -> length w = n_params m ->
  set_weight m (mkT [length (w ++ r)] (w ++ r)) = set_weight m (mkT [length w] w).
Proof. exact (fun K N m w r => set_extra m w r). Qed.
Print Assumptions C23_extra_ignored.
(** two networks with the same layers and the same get_weight() behave alike *)
Theorem C23_function_of_weight :
  forall (K : Type) (N : Num K) (m m' : module K) (w : tensor K) (h : st K) (x : tensor K),
  arch m m' -> sized m -> sized m' -> get_weight m = Ok w -> get_weight m' = Ok w ->
  forward m h x = forward m' h x.
Proof. exact (fun K N m m' w h x => fun_of_weight m m' w h x). Qed.
Print Assumptions C23_function_of_weight.
Theorem C23_no_parameters :
  forall (K : Type) (N : Num K) (m : module K), params m = [] -> get_weight m = Raise RuntimeError.
Proof. exact (fun K N m => get_weight_none m). Qed.
Print Assumptions C23_no_parameters.
(** a network keeps its type under set_weight *)
Theorem C23_typed :
  forall (K : Type) (N : Num K) (m m' : module K) (w : tensor K) (s s' : list nat),
  typed m s s' -> shape w = [n_params m] -> wf w -> set_weight m w = (m', Ok tt) -> typed m' s s'.
Proof. exact (fun K N m m' w s s' => set_typed m m' w s s'). Qed.
Print Assumptions C23_typed.
Example C23_case : sized netA /\ params netA <> [] /\ n_params netA = 15 /\
  get_weight (fst (set_weight netA (tz [15] [1;2;3;4;5;6;7;8;9;10;11;12;13;14;15]%Z))) = Ok (tz [15] [1;2;3;4;5;6;7;8;9;10;11;12;13;14;15]%Z) /\
  fst (set_weight netA (tz [15] [1;2;3;4;5;6;7;8;9;10;11;12;13;14;15]%Z)) <> netA /\
  snd (set_weight netA (tz [14] [1;2;3;4;5;6;7;8;9;10;11;12;13;14]%Z)) = Raise RuntimeError.
Proof.
  split; [exact (proj1 typed_sized _ _ _ netA_typed)|]. split; [discriminate|]. repeat split; try (vm_compute; reflexivity). discriminate.
Qed.
Example C23_case_conv : sized netB /\ n_params netB = 53 /\
  get_weight (fst (set_weight netB (mkT [53] (map Z.of_nat (seq 0 53))))) = Ok (mkT [53] (map Z.of_nat (seq 0 53))).
Proof. split; [exact (proj1 typed_sized _ _ _ netB_typed)|]. split; vm_compute; reflexivity. Qed.

Theorem C24_count :
  forall (K : Type) (N : Num K) (m : module K) (w : tensor K),
  sized m -> get_weight m = Ok w -> wf w /\ shape w = [n_params m].
Proof. exact (fun K N m w => count_weight m w). Qed.
Print Assumptions C24_count.
Theorem C24_count_layers :
  forall (K : Type) (N : Num K) (m : module K),
  sized m -> n_params m = fold_right Nat.add 0 (map (fun t => numel (shape t)) (params m)).
Proof. exact (fun K N m => count_layers m). Qed.
Print Assumptions C24_count_layers.
Theorem C24_widths :
  forall (K : Type) (N : Num K) (CR : CRing K) (m : module K) (s s' : list nat) (b r : nat) (x v M : tensor K) (h : st K),
  typed m s s' -> 0 < b -> wf x -> shape x = b :: s -> n_params m <> 0 ->
  wf v -> shape v = [b; numel s'] -> 0 < r -> wf M -> shape M = [b; r; numel s'] ->
  exists J u U, snd (jacobian m h x None Weight) = Ok (Some J) /\ shape J = [b; numel s'; n_params m] /\
    snd (vjp m h x None v Weight) = Ok (Some u) /\ shape u = [b; n_params m] /\
    snd (mjp m h x None (Some M) Weight) = Ok (Some U) /\ shape U = [b; r; n_params m].
Proof. exact (fun K N CR m s s' b r x v M h => weight_widths m s s' b r x v M h). Qed.
Print Assumptions C24_widths.
Example C24_case : typed netB [16] [1] /\ n_params netB <> 0 /\ map (@shape Z) (params netB) = [[2; 1; 3; 3]; [2]; [1; 32]; [1]] /\
  (exists w, get_weight netB = Ok w /\ shape w = [53]).
Proof. split; [exact netB_typed|]. split; [vm_compute; discriminate|]. split; [vm_compute; reflexivity|]. eexists. split; [vm_compute; reflexivity|reflexivity]. Qed.
