(** C52: mini-batches.  Each likelihood method is an aggregate of per-sample terms that do not depend on the batch the sample is in.
    [pick n f x] is the batch of samples f 0, ..., f (n-1) of x (with repetition and in any order); h, h1, h2 are arbitrary hidden states. *)
From Coq Require Import List Arith Lia Bool Reals Lra.
From Verif Require Import Scalar Sums Tensor Abstract Simple Module LogLik Spec Domain BatchSpec LikSpec LikBatchMain LikWitness Examples ExamplesR.
Import ListNotations.
Local Open Scope nat_scope.
Local Open Scope list_scope.

Theorem C52_forward : forall k (m : module R) (s s' : list nat) (b : nat) (x tg : tensor R),
  typed m s s' -> batchwise m -> 0 < b -> wf x -> shape x = b :: s -> wf tg -> shape tg = b :: s' -> (k = LogBernoulli -> s' <> []) ->
  exists r : nat -> R, forall a sh bp l n f h, ll_init a sh bp = Ok l -> reduces a -> 0 < n -> selects n f b ->
    snd (ll_forward k l m h (pick n f x) (Some (pick n f tg))) = Ok (Some (mkT [] [agg_value_of a n (fun i => r (f i))])).
Proof. exact main_batch_forward. Qed.
Print Assumptions C52_forward.
Theorem C52_gradient : forall k (m : module R) (s s' : list nat) (b : nat) (x tg : tensor R) w,
  typed m s s' -> batchwise m -> 0 < b -> wf x -> shape x = b :: s -> wf tg -> shape tg = b :: s' -> (k = LogBernoulli -> s' <> []) ->
  w <> Other -> (w = Weight -> n_params m <> 0) ->
  exists r : nat -> nat -> R, forall a sh bp l n f h, ll_init a sh bp = Ok l -> reduces a -> 0 < n -> selects n f b ->
    exists g, snd (ll_gradient k l m h (pick n f x) (Some (pick n f tg)) w) = Ok (Some g) /\
      aggregates a true n (match w with Input => numel s | _ => n_params m end) (fun i j _ => r (f i) j) g.
Proof. exact main_batch_gradient. Qed.
Print Assumptions C52_gradient.
(** ggn, for every call that returns (C39 says which raise) *)
Theorem C52_ggn_input : forall k sh (m : module R) (s s' : list nat) (b : nat) (x : tensor R),
  typed m s s' -> batchwise m -> all_sym m -> nonempty m -> 0 < b -> wf x -> shape x = b :: s -> (k = LogBernoulli -> s' <> [] /\ numel s' = last s' 0) ->
  exists r : nat -> nat -> nat -> R, forall a l n f h, ll_init a sh MExact = Ok l -> reduces a -> 0 < n -> selects n f b ->
    exists G, snd (ll_ggn k l m h (pick n f x) Input) = Ok (VT G) /\ aggregates a (only_diag sh) n (numel s) (fun i u v => r (f i) u v) G.
Proof. exact main_batch_ggn_input. Qed.
Print Assumptions C52_ggn_input.
Theorem C52_ggn_weight : forall k sh (m : module R) (s s' : list nat) (b : nat) (x : tensor R),
  typed m s s' -> batchwise m -> all_sym m -> nonempty m -> 0 < b -> wf x -> shape x = b :: s -> (k = LogBernoulli -> s' <> [] /\ numel s' = last s' 0) ->
  n_params m <> 0 -> (sh = MDiag \/ exists lf, m = Leaf lf) ->
  exists r : nat -> nat -> nat -> R, forall a l n f h, ll_init a sh MExact = Ok l -> reduces a -> 0 < n -> selects n f b ->
    exists G, snd (ll_ggn k l m h (pick n f x) Weight) = Ok (VT G) /\ aggregates a (only_diag sh) n (n_params m) (fun i u v => r (f i) u v) G.
Proof. exact main_batch_ggn_weight. Qed.
Print Assumptions C52_ggn_weight.
Theorem C52_ggn_approx : forall k (m : module R) (s s' : list nat) (b : nat) (x : tensor R) w,
  typed m s s' -> batchwise m -> all_sym m -> 0 < b -> wf x -> shape x = b :: s -> k <> LogBernoulli -> w <> Other -> (w = Weight -> n_params m <> 0) ->
  exists r : nat -> nat -> R, forall a l n f h, ll_init a MDiag MApprox = Ok l -> reduces a -> 0 < n -> selects n f b ->
    exists G, snd (ll_ggn k l m h (pick n f x) w) = Ok (VT G) /\
      aggregates a true n (match w with Input => numel s | _ => n_params m end) (fun i u _ => r (f i) u) G.
Proof. exact main_batch_ggn_approx. Qed.
Print Assumptions C52_ggn_approx.

(** with "sum", the results on two mini-batches add up to the result on the whole batch; [pick_all] says that the whole batch is the selection of all samples *)
Theorem C52_split_forward : forall k (m : module R) (s s' : list nat) (n1 n2 : nat) (x tg : tensor R) sh bp l h h1 h2,
  typed m s s' -> batchwise m -> 0 < n1 -> 0 < n2 -> wf x -> shape x = n1 + n2 :: s -> wf tg -> shape tg = n1 + n2 :: s' -> (k = LogBernoulli -> s' <> []) ->
  ll_init AggSum sh bp = Ok l ->
  exists F1 F2,
    snd (ll_forward k l m h1 (pick n1 (fun i => i) x) (Some (pick n1 (fun i => i) tg))) = Ok (Some (mkT [] [F1])) /\
    snd (ll_forward k l m h2 (pick n2 (fun i => n1 + i) x) (Some (pick n2 (fun i => n1 + i) tg))) = Ok (Some (mkT [] [F2])) /\
    snd (ll_forward k l m h x (Some tg)) = Ok (Some (mkT [] [(F1 + F2)%R])).
Proof. exact (fun k m s s' n1 n2 x tg sh bp l h h1 h2 Ty Bw H1 H2 Wx Sx Wt St Hk I0 => split_forward k m s s' n1 n2 x tg Ty Bw H1 H2 Wx Sx Wt St Hk sh bp l I0 h h1 h2). Qed.
Print Assumptions C52_split_forward.
Theorem C52_split_gradient : forall k (m : module R) (s s' : list nat) (n1 n2 : nat) (x tg : tensor R) sh bp l w h h1 h2,
  typed m s s' -> batchwise m -> 0 < n1 -> 0 < n2 -> wf x -> shape x = n1 + n2 :: s -> wf tg -> shape tg = n1 + n2 :: s' -> (k = LogBernoulli -> s' <> []) ->
  ll_init AggSum sh bp = Ok l -> w <> Other -> (w = Weight -> n_params m <> 0) ->
  exists g1 g2 g,
    snd (ll_gradient k l m h1 (pick n1 (fun i => i) x) (Some (pick n1 (fun i => i) tg)) w) = Ok (Some g1) /\
    snd (ll_gradient k l m h2 (pick n2 (fun i => n1 + i) x) (Some (pick n2 (fun i => n1 + i) tg)) w) = Ok (Some g2) /\
    snd (ll_gradient k l m h x (Some tg) w) = Ok (Some g) /\ tadd g1 g2 = Ok g.
Proof. exact (fun k m s s' n1 n2 x tg sh bp l w h h1 h2 Ty Bw H1 H2 Wx Sx Wt St Hk I0 => split_gradient k m s s' n1 n2 x tg Ty Bw H1 H2 Wx Sx Wt St Hk sh bp l I0 w h h1 h2). Qed.
Print Assumptions C52_split_gradient.
Theorem C52_average : forall k sh bp ls la (m : module R) (s s' : list nat) (b : nat) (x tg : tensor R) h h',
  ll_init AggSum sh bp = Ok ls -> ll_init AggAverage sh bp = Ok la ->
  typed m s s' -> batchwise m -> 0 < b -> wf x -> shape x = b :: s -> wf tg -> shape tg = b :: s' -> (k = LogBernoulli -> s' <> []) ->
  exists F, snd (ll_forward k ls m h x (Some tg)) = Ok (Some (mkT [] [F])) /\ snd (ll_forward k la m h' x (Some tg)) = Ok (Some (mkT [] [(F / INR b)%R])).
Proof. exact average_forward. Qed.
Print Assumptions C52_average.

Example C52_case : typed netR [2] [2] /\ batchwise netR /\ all_sym netR /\ nonempty netR /\ n_params netR = 9 /\ wf xR /\ shape xR = 1 + 1 :: [2] /\
  wf tR /\ shape tR = 1 + 1 :: [2] /\ [2] <> [] /\ numel [2] = last [2] 0 /\ selects 3 (fun i => 1 - i) 2 /\
  (exists l, ll_init AggSum MDiag MExact = Ok l) /\ (exists l, ll_init AggAverage MDiag MApprox = Ok l).
Proof.
  split; [exact netR_typed|]. split; [cbn; tauto|]. split; [exact netR_sym|]. split; [exact netR_nonempty|].
  repeat split; try reflexivity; try discriminate; try (eexists; reflexivity). intros i Hi. lia.
Qed.
(** y = 3 x on the samples 1 and 2 with targets 1 and 1: -2 and -25/2 add up to -29/2 *)
Example C52_case_values : let net : module R := Leaf (Linear (tr [1; 1] [3%R]) None) in
  snd (ll_forward LogGaussian lsum net st0 (tr [2; 1] [1; 2]%R) (Some (tr [2; 1] [1; 1]%R))) = Ok (Some (tr [] [(- (29 / 2))%R])) /\
  snd (ll_forward LogGaussian lsum net st0 (tr [1; 1] [1]%R) (Some (tr [1; 1] [1]%R))) = Ok (Some (tr [] [(- 2)%R])) /\
  snd (ll_forward LogGaussian lsum net st0 (tr [1; 1] [2]%R) (Some (tr [1; 1] [1]%R))) = Ok (Some (tr [] [(- (25 / 2))%R])).
Proof.
  cbv zeta. repeat split; (etransitivity; [cbv -[Rplus Rmult Rminus Ropp Rdiv Rinv exp ln IZR R0 R1 Rlt_dec]; reflexivity|]); unfold tr; do 4 f_equal; field.
Qed.
