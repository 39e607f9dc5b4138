(** C48: the generalised Gauss-Newton metric of a log likelihood is symmetric negative semidefinite. *)
From Coq Require Import List Arith Reals.
From Verif Require Import Scalar Sums Tensor Abstract Simple Module LogLik Spec Domain LikSpec NegSpec LikNeg LikWitness Examples ExamplesR.
Import ListNotations.
Local Open Scope nat_scope.

(** C48.  With respect to the input: every network, both metric shapes *)
Theorem C48_input : forall k a sh l (m : module R) (s s' : list nat) (b : nat) (x : tensor R) h,
  ll_init a sh MExact = Ok l -> reduces a -> typed m s s' -> all_sym m -> nonempty m -> 0 < b -> wf x -> shape x = b :: s ->
  (k = LogBernoulli -> s' <> [] /\ numel s' = last s' 0) ->
  exists G, snd (ll_ggn k l m h x Input) = Ok (VT G) /\ negative (only_diag sh) (numel s) G.
Proof. exact neg_ggn_input. Qed.
Print Assumptions C48_input.
(** with respect to the parameters, where the call returns (C39_refuted_full says when it does not) *)
Theorem C48_weight : forall k a sh l (m : module R) (s s' : list nat) (b : nat) (x : tensor R) h,
  ll_init a sh MExact = Ok l -> reduces a -> typed m s s' -> all_sym m -> nonempty m -> 0 < b -> wf x -> shape x = b :: s ->
  (k = LogBernoulli -> s' <> [] /\ numel s' = last s' 0) -> n_params m <> 0 -> (sh = MDiag \/ exists lf, m = Leaf lf) ->
  exists G, snd (ll_ggn k l m h x Weight) = Ok (VT G) /\ negative (only_diag sh) (n_params m) G.
Proof. exact neg_ggn_weight. Qed.
Print Assumptions C48_weight.
(** the diagonal approximation is nonpositive too *)
Theorem C48_approx : forall k a l (m : module R) (s s' : list nat) (b : nat) (x : tensor R) h w,
  ll_init a MDiag MApprox = Ok l -> reduces a -> typed m s s' -> all_sym m -> 0 < b -> wf x -> shape x = b :: s ->
  k <> LogBernoulli -> w <> Other -> (w = Weight -> n_params m <> 0) ->
  exists G, snd (ll_ggn k l m h x w) = Ok (VT G) /\ negative true (match w with Input => numel s | _ => n_params m end) G.
Proof. exact neg_ggn_approx. Qed.
Print Assumptions C48_approx.
Example C48_case : typed netR [2] [2] /\ all_sym netR /\ nonempty netR /\ n_params netR = 9 /\ wf xR /\ shape xR = 2 :: [2] /\ [2] <> [] /\ numel [2] = last [2] 0 /\
  (exists l, ll_init AggSum MFull MExact = Ok l) /\ (exists l, ll_init AggAverage MDiag MApprox = Ok l).
Proof.
  split; [exact netR_typed|]. split; [exact netR_sym|]. split; [exact netR_nonempty|]. repeat split; try reflexivity; try discriminate.
  all: eexists; reflexivity.
Qed.
