(** C41, C42: nnj/utils.py. *)
From Coq Require Import List Arith ZArith Bool Reals.
From Verif Require Import Scalar Sums Tensor Conv Abstract Simple LinearLayer ConvLayer PoolLayer Module Spec Domain Utils UtilSpec UtilProofs UtilWitness Examples ExamplesR.
Import ListNotations.
Local Open Scope nat_scope.
Local Open Scope list_scope.

(** C41.  Full statement: for every torch Sequential of supported layers, the converted model computes the same function and has the
    same parameters.  It holds for [plain] layers: with a bias, and with every setting other than the kernel size at torch's default. *)
Theorem C41_partial : forall (K : Type) (N : Num K) (CR : CRing K) (ls : list (tlayer K)), Forall plain ls ->
  exists m, convert_to_nnj ls = Ok m /\ params m = flat_map t_params ls /\ forall s x, snd (forward m s x) = t_seq_forward ls x.
Proof. exact (fun K N CR ls P => convert_plain ls P). Qed.
Print Assumptions C41_partial.
Example C41_case : Forall plain torchA /\ t_seq_forward torchA imgA = Ok (tz [1; 2] [69; 9]%Z).
Proof. split; [exact torchA_plain|]. vm_compute. reflexivity. Qed.
(** a layer without bias makes the conversion raise, wherever it stands *)
Theorem C41_refuted_bias : forall (K : Type) (N : Num K) (ls : list (tlayer K)) l, In l ls ->
  match l with TLinear _ b | TConv2d _ _ b => b = None | _ => False end -> convert_to_nnj ls = Raise AttributeError.
Proof. exact (fun K N => convert_no_bias). Qed.
Print Assumptions C41_refuted_bias.
(** a nested Sequential becomes the identity, and an Upsample raises on every input *)
Theorem C41_refuted_nested : forall (K : Type) (N : Num K) (CR : CRing K) (ls : list (tlayer K)),
  exists m, convert_to_nnj [TSequential ls] = Ok m /\ params m = [] /\ forall s x, snd (forward m s x) = Ok x.
Proof. exact (fun K N CR => convert_nested). Qed.
Print Assumptions C41_refuted_nested.
Theorem C41_refuted_upsample : forall (K : Type) (N : Num K) (CR : CRing K) sn sd,
  exists m, convert_to_nnj [TUpsample sn sd : tlayer K] = Ok m /\ forall s x, snd (forward m s x) = Raise ValueError.
Proof. exact (fun K N CR => convert_upsample). Qed.
Print Assumptions C41_refuted_upsample.
(** settings that are silently dropped: padding of a convolution, stride of a pooling, beta of a Softplus, layers of a nested Sequential *)
Theorem C41_refuted_settings :
  (exists m x, convert_to_nnj torch_pad = Ok m /\ snd (forward m st0 x) <> t_seq_forward torch_pad x) /\
  (exists m x, convert_to_nnj torch_stride = Ok m /\ snd (forward m st0 x) <> t_seq_forward torch_stride x) /\
  (exists m x, convert_to_nnj torch_nested = Ok m /\ snd (forward m st0 x) <> t_seq_forward torch_nested x) /\
  (exists m x, convert_to_nnj torch_soft = Ok m /\ snd (forward m st0 x) <> t_seq_forward torch_soft x).
Proof. exact settings_change. Qed.
Print Assumptions C41_refuted_settings.

(** C42.  Full statement: every block of the result is the inverse of the block it stands for.  What holds: the blocks are read as
    Cholesky factors, [gram n C] = C C^T, and the result holds the inverses of those products, in the same nesting. *)
Theorem C42_factors_partial : forall v : value R,
  blocks (fun n A => (forall i, i < n -> A i i <> 0%R) /\ forall i j, i < j -> j < n -> A i j = 0%R) v ->
  exists u, invert_block_diagonal v = Ok u /\ blockwise (fun n C X => is_inverse n (gram n C) X) v u.
Proof. exact invert_factors. Qed.
Print Assumptions C42_factors_partial.
(** and for any blocks without a zero on the diagonal: a block is inverted if and only if it equals tril(A) tril(A)^T *)
Theorem C42_exact_partial : forall v : value R, blocks (fun n A => forall i, i < n -> A i i <> 0%R) v ->
  exists u, invert_block_diagonal v = Ok u /\ blockwise (fun n A X => is_inverse n (gram n (tril A)) X /\
    (is_inverse n A X <-> forall i j, i < n -> j < n -> A i j = gram n (tril A) i j)) v u.
Proof. exact invert_blocks. Qed.
Print Assumptions C42_exact_partial.
Example C42_case : blocks (fun n A => (forall i, i < n -> A i i <> 0%R) /\ forall i j, i < j -> j < n -> A i j = 0%R) blocksA.
Proof. exact blocksA_ok. Qed.
(** the 1x1 block a gives 1/a^2 instead of 1/a *)
Theorem C42_refuted : forall a : R, a <> 0%R -> a <> 1%R ->
  exists u, invert_block_diagonal (VT (mkT [1; 1; 1] [a])) = Ok (VT u) /\ block_of u [0] 0 0 = (/ (a * a))%R /\
    ~ is_inverse 1 (fun _ _ => a) (block_of u [0]).
Proof. exact invert_1. Qed.
Print Assumptions C42_refuted.
