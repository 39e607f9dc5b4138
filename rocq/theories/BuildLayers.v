(** Constructors: what the layers built by nnj.MaxPool2d, nnj.Upsample, nnj.Reshape and the activations compute (C70). *)
From Coq Require Import String List Arith ZArith Lia Bool Reals.
From Verif Require Import Scalar Sums Tensor TensorLemmas Conv Abstract Simple LinearLayer ConvLayer PoolLayer Module Spec Domain
  TreeBase Trees PoolExact FwdSpec Fwd Build BuildSpec BuildProofs.
Import ListNotations.
Local Open Scope nat_scope.
Local Open Scope list_scope.

Section Layers.
  Context {K} `{CR : CRing K}.
  Notation T := (tensor K).

  (** a pooling that returns has no window outside the image *)
  Lemma pool_runs cfg b c h w (x y : T) : 0 < b -> 0 < c -> 0 < h -> 0 < w -> shape x = [b; c; h; w] -> fwd (MaxPool cfg) x = Ok y ->
    exists h2 w2, pool_sized cfg [c; h; w] [c; h2; w2].
  Proof.
    intros Hb Hc Hh Hw Sx E. rewrite fwd_Pool in E. unfold max_pool2d in E. rewrite Sx in E. unfold max_pool4 in E. rewrite Sx in E.
    destruct (pool_len h _ _ _ _ _) as [h2|] eqn:Eh; [|discriminate]. destruct (pool_len w _ _ _ _ _) as [w2|] eqn:Ew; [|discriminate].
    destruct (forallb _ _) eqn:A; [|discriminate]. clear E. rewrite forallb_forall in A.
    destruct (pool_len_pos _ _ _ _ _ _ _ Hh Eh) as (Q1 & _), (pool_len_pos _ _ _ _ _ _ _ Hw Ew) as (Q4 & _).
    assert (W : forall o o', o < h2 -> o' < w2 -> window h (fst (pk cfg)) (fst (ps cfg)) (fst (pp cfg)) (fst (pd cfg)) o <> [] /\
      window w (snd (pk cfg)) (snd (ps cfg)) (snd (pp cfg)) (snd (pd cfg)) o' <> []).
    { intros o o' Lo Lo'. assert (B : valid [b; c; h2; w2] [0; 0; o; o']) by (cbn; repeat split; auto; lia).
      specialize (A (ravel [b; c; h2; w2] [0; 0; o; o'])). rewrite in_seq in A. pose proof (ravel_lt _ _ B) as L. specialize (A ltac:(lia)).
      rewrite unravel_ravel in A by auto. unfold pool_cell in A. destruct (argmax _ _) eqn:G in A; [|discriminate]. now apply cells_some in G. }
    exists h2, w2. cbn [pool_sized]. repeat split; auto.
    - intros o Lo. now apply (W o 0).
    - intros o Lo. now apply (W 0 o).
  Qed.
  Lemma pool_len_floor n k s p d q : pool_len n k s p d false = Some q ->
    (q - 1) * s + d * (k - 1) + 1 <= n + 2 * p /\ n + 2 * p < q * s + d * (k - 1) + 1.
  Proof.
    unfold pool_len. destruct (_ && _) eqn:E; [|discriminate]. repeat (apply andb_true_iff in E as [E ?]).
    repeat match goal with H : (_ <? _) = true |- _ => apply Nat.ltb_lt in H | H : (_ <=? _) = true |- _ => apply Nat.leb_le in H end.
    intros [= <-]. set (t := n + 2 * p - (d * (k - 1) + 1)). pose proof (Nat.div_mod t s ltac:(lia)). pose proof (Nat.mod_upper_bound t s ltac:(lia)).
    rewrite Nat.add_sub, Nat.mul_add_distr_r, (Nat.mul_comm (t / s)). set (u := s * (t / s)) in *. subst t. lia.
  Qed.
  Lemma build_upsample k m c h w b (x : T) : build (EUpsample k 1 : expr K) = Ok (Some m) -> 0 < k -> 0 < h -> 0 < w -> shape x = [b; c; h; w] ->
    exists y, fwd m x = Ok y /\ shape y = [b; c; h * k; w * k] /\
      forall q ch i j u v, q < b -> ch < c -> i < h -> j < w -> u < k -> v < k -> get n0 y [q; ch; i * k + u; j * k + v] = get n0 x [q; ch; i; j].
  Proof. intros [= <-] Hk Hh Hw Sx. destruct (upsample_is k c h w b x) as (y & E & _ & R); eauto. Qed.
  Lemma build_reshape b s d m (x : T) : build (EReshape d : expr K) = Ok (Some m) -> 0 < b -> 0 < numel s -> shape x = b :: s ->
    (forall s', dims_match d s' = true -> numel s' = numel s -> fwd m x = Ok (mkT (b :: s') (data x))) /\
    ((forall s', dims_match d s' = true -> numel s' <> numel s) -> fwd m x = Raise RuntimeError).
  Proof. intros [= <-]. apply reshape_infer. Qed.
  Lemma build_flatten b s m (x : T) : build (EFlatten : expr K) = Ok (Some m) -> 0 < b -> shape x = b :: s -> fwd m x = Ok (mkT [b; numel s] (data x)).
  Proof. intros [= <-]. apply flatten_is. Qed.
End Layers.

Lemma build_pool k s p d ceil m b c h w (x y : tensor R) : build (EPool k s p d ceil : expr R) = Ok (Some m) ->
  0 < b -> 0 < c -> 0 < h -> 0 < w -> wf x -> shape x = [b; c; h; w] -> fwd m x = Ok y ->
  let s := match s with Some s => s | None => k end in
  exists h2 w2, shape y = [b; c; h2; w2] /\
    (ceil = false ->
      (h2 - 1) * fst (pair_of s) + fst (pair_of d) * (fst (pair_of k) - 1) + 1 <= h + 2 * fst (pair_of p) /\
      h + 2 * fst (pair_of p) < h2 * fst (pair_of s) + fst (pair_of d) * (fst (pair_of k) - 1) + 1 /\
      (w2 - 1) * snd (pair_of s) + snd (pair_of d) * (snd (pair_of k) - 1) + 1 <= w + 2 * snd (pair_of p) /\
      w + 2 * snd (pair_of p) < w2 * snd (pair_of s) + snd (pair_of d) * (snd (pair_of k) - 1) + 1) /\
    forall q ch i j, q < b -> ch < c -> i < h2 -> j < w2 ->
      let inside r t := in_window h (fst (pair_of k)) (fst (pair_of s)) (fst (pair_of p)) (fst (pair_of d)) i r /\
                        in_window w (snd (pair_of k)) (snd (pair_of s)) (snd (pair_of p)) (snd (pair_of d)) j t in
      (forall r t, inside r t -> (get 0 x [q; ch; r; t] <= get 0 y [q; ch; i; j])%R) /\
      exists r t, inside r t /\ get 0%R y [q; ch; i; j] = get 0%R x [q; ch; r; t].
Proof.
  intros [= <-] Hb Hc Hh Hw Wx Sx E s0. unfold make_pool in E. fold s0 in E.
  destruct (pool_runs _ _ _ _ _ x y Hb Hc Hh Hw Sx E) as (h2 & w2 & G). exists h2, w2.
  destruct (pool_is_max _ _ _ _ _ _ _ x G Hb Wx Sx) as (y' & E' & _ & Sy & R). assert (y' = y) by congruence. subst y'.
  split; [exact Sy|]. split; [|exact R]. intros ->. destruct G as (_ & _ & _ & _ & _ & _ & G1 & G2 & _). cbn [pk ps pp pd pceil] in G1, G2.
  apply pool_len_floor in G1, G2. tauto.
Qed.
Lemma build_act a m (x : tensor R) : build (EAct a : expr R) = Ok (Some m) -> wf x ->
  exists y, fwd m x = Ok y /\ shape y = shape x /\
    forall idx, valid (shape x) idx -> let v := get 0%R x idx in get 0%R y idx =
      match a with
      | Tanh => ((exp v - exp (- v)) / (exp v + exp (- v)))%R
      | ReLU => Rmax 0 v
      | Sigmoid => (/ (1 + exp (- v)))%R
      | Sinusoidal => sin v
      | Softplus beta threshold => if Rlt_dec threshold (beta * v) then v else (ln (1 + exp (beta * v)) / beta)%R
      | TruncExp => exp v
      end.
Proof. intros [= <-] Wx. destruct (act_is a x Wx) as (y & E & _ & R). eauto. Qed.
Lemma build_l2 eps m b s (x : tensor R) : build (EL2Norm eps : expr R) = Ok (Some m) -> 0 < b -> wf x -> shape x = b :: s ->
  exists y, fwd m x = Ok y /\ shape y = b :: s /\
    forall q i, q < b -> i < numel s ->
      nth (q * numel s + i) (data y) 0%R =
      (nth (q * numel s + i) (data x) 0 / (sqrt (bsum (numel s) (fun j => nth (q * numel s + j) (data x) 0 * nth (q * numel s + j) (data x) 0)) + eps))%R.
Proof. intros [= <-] Hb Wx Sx. destruct (l2_is eps b s x Hb Wx Sx) as (y & E & _ & R). eauto. Qed.
