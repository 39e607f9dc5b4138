(** The batch lemmas of the likelihoods in the form of the property theorems. *)
From Coq Require Import List Arith Lia Bool Reals Lra.
From Verif Require Import Scalar Sums Tensor TensorLemmas Conv Abstract Simple Module LogLik Spec Domain OpLemmas Jac Trees
  BatchSpec Batch LikSpec LikFlat LikCalc LikGrad LikHess LikBatch.
Import ListNotations.
Local Open Scope nat_scope.
Local Open Scope list_scope.

Lemma main_batch_forward : forall k (m : module R) (s s' : list nat) (b : nat) (x tg : tensor R),
  typed m s s' -> batchwise m -> 0 < b -> wf x -> shape x = b :: s -> wf tg -> shape tg = b :: s' -> (k = LogBernoulli -> s' <> []) ->
  exists r : nat -> R, forall a sh bp l n f h, ll_init a sh bp = Ok l -> reduces a -> 0 < n -> selects n f b ->
    snd (ll_forward k l m h (pick n f x) (Some (pick n f tg))) = Ok (Some (mkT [] [agg_value_of a n (fun i => r (f i))])).
Proof.
  intros k m s s' b x tg Ty Bw Hb Wx Sx Wt St Hk. destruct (batch_forward k m s s' b x Ty Bw Hb Wx Sx tg St Hk) as (r & E).
  exists r. intros a sh bp l n f h I0 Ra Hn Hf. destruct (init_fields _ _ _ _ I0) as (<- & _). now apply E.
Qed.
Lemma main_batch_gradient : forall k (m : module R) (s s' : list nat) (b : nat) (x tg : tensor R) w,
  typed m s s' -> batchwise m -> 0 < b -> wf x -> shape x = b :: s -> wf tg -> shape tg = b :: s' -> (k = LogBernoulli -> s' <> []) ->
  w <> Other -> (w = Weight -> n_params m <> 0) ->
  exists r : nat -> nat -> R, forall a sh bp l n f h, ll_init a sh bp = Ok l -> reduces a -> 0 < n -> selects n f b ->
    exists g, snd (ll_gradient k l m h (pick n f x) (Some (pick n f tg)) w) = Ok (Some g) /\
      aggregates a true n (match w with Input => numel s | _ => n_params m end) (fun i j _ => r (f i) j) g.
Proof.
  intros k m s s' b x tg w Ty Bw Hb Wx Sx Wt St Hk Hw Hp. destruct (batch_gradient k m s s' b x Ty Bw Hb Wx Sx tg Wt St Hk w Hw Hp) as (r & E).
  exists r. intros a sh bp l n f h I0 Ra Hn Hf. destruct (init_fields _ _ _ _ I0) as (<- & _). now apply E.
Qed.
Lemma main_batch_ggn_input : forall k sh (m : module R) (s s' : list nat) (b : nat) (x : tensor R),
  typed m s s' -> batchwise m -> all_sym m -> nonempty m -> 0 < b -> wf x -> shape x = b :: s -> (k = LogBernoulli -> s' <> [] /\ numel s' = last s' 0) ->
  exists r : nat -> nat -> nat -> R, forall a l n f h, ll_init a sh MExact = Ok l -> reduces a -> 0 < n -> selects n f b ->
    exists G, snd (ll_ggn k l m h (pick n f x) Input) = Ok (VT G) /\ aggregates a (only_diag sh) n (numel s) (fun i u v => r (f i) u v) G.
Proof.
  intros k sh m s s' b x Ty Bw Sy Ne Hb Wx Sx Hk. apply (batch_ggn k m s s' b x Ty Bw Hb Wx Sx Hk sh MExact Input Sy).
  split; [discriminate|]. split; [discriminate|]. split; [auto|discriminate].
Qed.
Lemma main_batch_ggn_weight : forall k sh (m : module R) (s s' : list nat) (b : nat) (x : tensor R),
  typed m s s' -> batchwise m -> all_sym m -> nonempty m -> 0 < b -> wf x -> shape x = b :: s -> (k = LogBernoulli -> s' <> [] /\ numel s' = last s' 0) ->
  n_params m <> 0 -> (sh = MDiag \/ exists lf, m = Leaf lf) ->
  exists r : nat -> nat -> nat -> R, forall a l n f h, ll_init a sh MExact = Ok l -> reduces a -> 0 < n -> selects n f b ->
    exists G, snd (ll_ggn k l m h (pick n f x) Weight) = Ok (VT G) /\ aggregates a (only_diag sh) n (n_params m) (fun i u v => r (f i) u v) G.
Proof.
  intros k sh m s s' b x Ty Bw Sy Ne Hb Wx Sx Hk Hp Hs. apply (batch_ggn k m s s' b x Ty Bw Hb Wx Sx Hk sh MExact Weight Sy).
  split; [discriminate|]. split; [auto|]. split; [auto|]. intros _. destruct Hs as [-> |]; auto.
Qed.
Lemma main_batch_ggn_approx : forall k (m : module R) (s s' : list nat) (b : nat) (x : tensor R) w,
  typed m s s' -> batchwise m -> all_sym m -> 0 < b -> wf x -> shape x = b :: s -> k <> LogBernoulli -> w <> Other -> (w = Weight -> n_params m <> 0) ->
  exists r : nat -> nat -> R, forall a l n f h, ll_init a MDiag MApprox = Ok l -> reduces a -> 0 < n -> selects n f b ->
    exists G, snd (ll_ggn k l m h (pick n f x) w) = Ok (VT G) /\
      aggregates a true n (match w with Input => numel s | _ => n_params m end) (fun i u _ => r (f i) u) G.
Proof.
  intros k m s s' b x w Ty Bw Sy Hb Wx Sx Hk Hw Hp.
  destruct (batch_ggn k m s s' b x Ty Bw Hb Wx Sx ltac:(intros ->; now destruct Hk) MDiag MApprox w Sy) as (r & E).
  { split; [auto|]. split; [auto|]. split; [|reflexivity]. destruct k; [reflexivity|reflexivity|now destruct Hk]. }
  exists (fun q u => r q u u). intros a l n f h I0 Ra Hn Hf. destruct (E a l n f h I0 Ra Hn Hf) as (G & EG & HG). exists G. split; auto.
Qed.

(** the whole batch *)
Lemma pick_all (t : tensor R) b s : wf t -> shape t = b :: s -> pick b (fun i => i) t = t.
Proof. intros W St. symmetry. apply (pick_eq b b (fun i => i) t t s W St St). auto. Qed.
Lemma selects_all b : selects b (fun i => i) b. Proof. intros i Hi. exact Hi. Qed.
Lemma selects_first n1 n2 : selects n1 (fun i => i) (n1 + n2). Proof. intros i Hi. lia. Qed.
Lemma selects_rest n1 n2 : selects n2 (fun i => n1 + i) (n1 + n2). Proof. intros i Hi. lia. Qed.
Lemma bsum_split n1 n2 (f : nat -> R) : bsum (n1 + n2) f = (bsum n1 f + bsum n2 (fun i => f (n1 + i)%nat))%R.
Proof. induction n2 as [|n2 IH]; [rewrite Nat.add_0_r; cbn; ring|]. rewrite Nat.add_succ_r. cbn [bsum]. rewrite IH. cbn [nadd Num_R]. ring. Qed.

Section Split.
  Variables (k : lik) (m : module R) (s s' : list nat) (n1 n2 : nat) (x tg : tensor R).
  Hypothesis (Ty : typed m s s') (Bw : batchwise m) (H1 : 0 < n1) (H2 : 0 < n2) (Wx : wf x) (Sx : shape x = n1 + n2 :: s)
    (Wt : wf tg) (St : shape tg = n1 + n2 :: s') (Hk : k = LogBernoulli -> s' <> []).
  Variables (sh : mshape) (bp : mbackprop) (l : loglik) (I0 : ll_init AggSum sh bp = Ok l).
  Let Hb : 0 < n1 + n2. Proof. lia. Qed.
  Notation fst_ := (pick n1 (fun i => i)).
  Notation rest := (pick n2 (fun i => n1 + i)).
  Lemma split_forward h h1 h2 : exists F1 F2,
    snd (ll_forward k l m h1 (fst_ x) (Some (fst_ tg))) = Ok (Some (mkT [] [F1])) /\
    snd (ll_forward k l m h2 (rest x) (Some (rest tg))) = Ok (Some (mkT [] [F2])) /\
    snd (ll_forward k l m h x (Some tg)) = Ok (Some (mkT [] [(F1 + F2)%R])).
  Proof.
    destruct (main_batch_forward k m s s' (n1 + n2) x tg Ty Bw Hb Wx Sx Wt St Hk) as (r & E). eexists. eexists.
    split; [exact (E _ _ _ l n1 _ h1 I0 (or_introl eq_refl) H1 (selects_first n1 n2))|].
    split; [exact (E _ _ _ l n2 _ h2 I0 (or_introl eq_refl) H2 (selects_rest n1 n2))|].
    pose proof (E _ _ _ l (n1 + n2) _ h I0 (or_introl eq_refl) Hb (selects_all _)) as A. rewrite (pick_all x _ s Wx Sx), (pick_all tg _ s' Wt St) in A.
    rewrite A. do 4 f_equal. cbn [agg_value_of]. apply bsum_split.
  Qed.
  Lemma split_gradient w h h1 h2 : w <> Other -> (w = Weight -> n_params m <> 0) -> exists g1 g2 g,
    snd (ll_gradient k l m h1 (fst_ x) (Some (fst_ tg)) w) = Ok (Some g1) /\
    snd (ll_gradient k l m h2 (rest x) (Some (rest tg)) w) = Ok (Some g2) /\
    snd (ll_gradient k l m h x (Some tg) w) = Ok (Some g) /\ tadd g1 g2 = Ok g.
  Proof.
    intros Hw Hp. destruct (main_batch_gradient k m s s' (n1 + n2) x tg w Ty Bw Hb Wx Sx Wt St Hk Hw Hp) as (r & E).
    destruct (E _ _ _ l n1 _ h1 I0 (or_introl eq_refl) H1 (selects_first n1 n2)) as (g1 & E1 & A1).
    destruct (E _ _ _ l n2 _ h2 I0 (or_introl eq_refl) H2 (selects_rest n1 n2)) as (g2 & E2 & A2).
    destruct (E _ _ _ l (n1 + n2) _ h I0 (or_introl eq_refl) Hb (selects_all _)) as (g & E3 & A3). rewrite (pick_all x _ s Wx Sx), (pick_all tg _ s' Wt St) in E3.
    exists g1, g2, g. split; auto. split; auto. split; auto.
    destruct A1 as (W1 & S1 & V1), A2 as (W2 & S2 & V2), A3 as (W3 & S3 & V3). cbn iota in *.
    destruct (bop_flat (K := R) nadd g1 g2 W1 W2 ltac:(congruence)) as (d & Ed & Wd & Sd & Hd). unfold tadd. rewrite Ed. f_equal.
    set (P := match w with Input => numel s | _ => n_params m end) in *. clearbody P.
    assert (L : forall t : tensor R, wf t -> shape t = [P] -> length (data t) = P) by (intros t Wt0 St0; rewrite Wt0, St0, numel_cons, numel_nil; lia).
    assert (Eq : data d = data g).
    { apply (nth_ext _ _ 0%R 0%R); rewrite (L d) by congruence; [now rewrite (L g)|]. intros i Hi.
      etransitivity; [exact (Hd i ltac:(rewrite S1, numel_cons, numel_nil; lia))|].
      etransitivity; [exact (f_equal2 Rplus (V1 i i Hi Hi) (V2 i i Hi Hi))|]. rewrite (V3 i i Hi Hi). cbn [agg_value_of]. symmetry. apply bsum_split. }
    destruct d as [sd dd], g as [sg dg]. cbn in *. congruence.
  Qed.
End Split.

(** the average is the sum divided by the number of samples *)
Lemma average_forward : forall k sh bp ls la (m : module R) (s s' : list nat) (b : nat) (x tg : tensor R) h h',
  ll_init AggSum sh bp = Ok ls -> ll_init AggAverage sh bp = Ok la ->
  typed m s s' -> batchwise m -> 0 < b -> wf x -> shape x = b :: s -> wf tg -> shape tg = b :: s' -> (k = LogBernoulli -> s' <> []) ->
  exists F, snd (ll_forward k ls m h x (Some tg)) = Ok (Some (mkT [] [F])) /\ snd (ll_forward k la m h' x (Some tg)) = Ok (Some (mkT [] [(F / INR b)%R])).
Proof.
  intros k sh bp ls la m s s' b x tg h h' Is Ia Ty Bw Hb Wx Sx Wt St Hk. destruct (main_batch_forward k m s s' b x tg Ty Bw Hb Wx Sx Wt St Hk) as (r & E).
  eexists. pose proof (E _ _ _ ls b _ h Is (or_introl eq_refl) Hb (selects_all _)) as A. pose proof (E _ _ _ la b _ h' Ia (or_intror eq_refl) Hb (selects_all _)) as B.
  rewrite (pick_all x _ s Wx Sx), (pick_all tg _ s' Wt St) in A, B. split; [exact A|exact B].
Qed.
