(** The products of a Linear layer with respect to an input with more than two dimensions. *)
From Coq Require Import String Ascii List Arith ZArith Lia Bool.
From Verif Require Import Scalar Sums Tensor TensorLemmas EinsumLemmas Conv Abstract Simple LinearLayer ConvLayer PoolLayer
  Module Spec Domain OpLemmas ReshapeLemmas Jac LeafSpec LeafSimple LeafLinear RankSpec RankProofs.
Import ListNotations.
Local Open Scope nat_scope.
Local Open Scope list_scope.

Section P.
  Context {K} `{CR : CRing K}.
  Add Ring Kring : (cring : ring_theory n0 n1 nadd nmul nsub nopp (@eq K)).
  Notation gt := (get (@n0 K _)).
  Notation T := (tensor K).

  Ltac esize :=
    unfold einsum;
    match goal with |- context [parse_einsum ?s] =>
      let v := eval vm_compute in (parse_einsum s) in change (parse_einsum s) with v end;
    cbv beta iota; unfold sizes, rank;
    repeat match goal with H : shape ?t = _ |- context [shape ?t] => rewrite H end;
    repeat match goal with |- context [Nat.eqb (List.length ?a) (List.length ?b)] =>
      change (Nat.eqb (List.length a) (List.length b)) with true; cbv iota end;
    cbn [combine fold_left];
    repeat match goal with |- context [own_sizes ?l] =>
      let H := fresh in assert (H : own_sizes l = true) by (cbn -[Nat.eqb]; rewrite ?Nat.eqb_refl; reflexivity); rewrite H; clear H; cbv iota end;
    repeat first [rewrite add_size_new by reflexivity | rewrite add_size_same by reflexivity];
    cbn -[tab Nat.eqb operand].
  (** two different sizes under one label: an error, unless one of them is 1 *)
  Definition mixed (r : res T) (n k : nat) (s : list nat) : Prop :=
    n <> k -> k <> 1 -> (n <> 1 -> raises r) /\ (n = 1 -> exists t, r = Ok t /\ shape t = s).
  Ltac mix := intros; unfold mixed, raises; intros E1 E2; split; intros E3;
    [esize; repeat (match goal with |- context [Nat.eqb ?a ?c] => destruct (Nat.eqb_spec a c); try congruence end; cbn -[tab Nat.eqb operand]); eauto
    |esize; repeat (match goal with |- context [Nat.eqb ?a ?c] => destruct (Nat.eqb_spec a c); try congruence end; cbn -[tab Nat.eqb operand]); eauto].

  Lemma mix_vjp (v W : T) b k n m : shape v = [b; k] -> shape W = [n; m] -> mixed (einsum "bj,jk->bk" [v; W]) n k [b; m].
  Proof. mix. Qed.
  Lemma mix_mjp (M W : T) b r k n m : shape M = [b; r; k] -> shape W = [n; m] -> mixed (einsum "bij,jk->bik" [M; W]) n k [b; r; m].
  Proof. mix. Qed.
  Lemma mix_jvp (v W : T) b k n m : shape v = [b; k] -> shape W = [m; n] -> mixed (einsum "kj,bj->bk" [W; v]) n k [b; m].
  Proof. mix. Qed.
  Lemma mix_jmp (M W : T) b r k n m : shape M = [b; k; r] -> shape W = [m; n] -> mixed (einsum "kj,bji->bki" [W; M]) n k [b; m; r].
  Proof. mix. Qed.
  Lemma mix_pull_ff (M W : T) b k n m : shape M = [b; k; k] -> shape W = [n; m] -> mixed (einsum "nm,bnj,jk->bmk" [W; M; W]) n k [b; m; m].
  Proof. mix. Qed.
  Lemma mix_pull_df (M W : T) b k n m : shape M = [b; k] -> shape W = [n; m] -> mixed (einsum "nm,bn,nk->bmk" [W; M; W]) n k [b; m; m].
  Proof. mix. Qed.
  Lemma mix_pull_fd (M W : T) b k n m : shape M = [b; k; k] -> shape W = [n; m] -> mixed (einsum "nm,bnj,jm->bm" [W; M; W]) n k [b; m].
  Proof. mix. Qed.
  Lemma mix_pull_dd (M W : T) b k n m : shape M = [b; k] -> shape W = [n; m] -> mixed (einsum "nm,bn,nm->bm" [W; M; W]) n k [b; m].
  Proof. mix. Qed.
  Lemma mix_push_ff (M W : T) b k n m : shape M = [b; k; k] -> shape W = [m; n] -> mixed (einsum "mn,bnj,kj->bmk" [W; M; W]) n k [b; m; m].
  Proof. mix. Qed.
  Lemma mix_push_df (M W : T) b k n m : shape M = [b; k] -> shape W = [m; n] -> mixed (einsum "mn,bn,kn->bmk" [W; M; W]) n k [b; m; m].
  Proof. mix. Qed.
  Lemma mix_push_fd (M W : T) b k n m : shape M = [b; k; k] -> shape W = [m; n] -> mixed (einsum "mn,bnj,mj->bm" [W; M; W]) n k [b; m].
  Proof. mix. Qed.
  Lemma mix_push_dd (M W : T) b k n m : shape M = [b; k] -> shape W = [m; n] -> mixed (einsum "mn,bn,mn->bm" [W; M; W]) n k [b; m].
  Proof. mix. Qed.

  Section Prod.
    Variables (W : T) (bias : option T) (x y : T) (b : nat) (l : list nat) (c1 c2 : nat) (val : option T) (h : st K).
    Hypothesis (SW : shape W = [c2; c1]) (WW : wf W) (BO : bias_ok bias c2) (H1 : 0 < c1) (H2 : 0 < c2) (Hb : 0 < b).
    Hypothesis (Sx : shape x = b :: l ++ [c1]) (Fy : lin_forward W bias x = Ok y) (V : val = None \/ val = Some y).
    Let t := numel l.
    Let J := block W c1 c2.
    Let m := Leaf (Linear W bias).
    Let x0 : T := zeros [b; c1].
    Lemma x0_fwd : exists y0, lin_forward W bias x0 = Ok y0.
    Proof. eexists. apply (lin_fwd_ok W bias c1 c2 b x0); auto. Qed.
    Lemma val_ok : lin_val W bias x val = Ok y.
    Proof. destruct V as [-> | ->]; cbn; auto. Qed.
    Lemma J_one q i j : i < c2 -> j < c1 -> J q i j = gt W [i; j].
    Proof. intros Hi Hj. unfold J, block. now rewrite !Nat.div_small, !Nat.mod_small by auto. Qed.
    Lemma size_facts : t <> 1 -> (c2 <> t * c2) /\ (c1 <> t * c1) /\ (c2 <> 1 -> t * c2 <> 1) /\ (c1 <> 1 -> t * c1 <> 1) /\ (c2 = 1 -> t * c2 <> 1) /\ (c1 = 1 -> t * c1 <> 1).
    Proof.
      intros Ht. repeat split; nia.
    Qed.
    Lemma from_mix (r : res T) n s wanted : (n = c2 \/ n = c1) -> t <> 1 -> mixed r n (t * n) s -> s <> wanted ->
      (n <> 1 -> raises (some r)) /\ (n = 1 -> misshaped Some (some r) s wanted).
    Proof.
      intros Hn Ht Mx Hs. destruct (size_facts Ht) as (A & A' & B & B' & C & C').
      assert (E1 : n <> t * n) by (destruct Hn as [-> | ->]; auto).
      assert (E2 : t * n <> 1) by (destruct (Nat.eq_dec n 1); destruct Hn as [-> | ->]; auto).
      destruct (Mx E1 E2) as [R G]. split; intros E.
      - apply raises_some. auto.
      - destruct (G E) as (u & -> & Su). exists u. auto.
    Qed.

    (** *** one position *)
    Lemma vjp_one v : t = 1 -> shape v = [b; t * c2] -> snd (vjp m h x val v Input) = Ok (Some (vJ b (t * c2) (t * c1) J v)).
    Proof.
      intros -> Sv. rewrite !Nat.mul_1_l in *. destruct x0_fwd as [y0 F0]. cbn [vjp snd m leaf_vjp].
      transitivity (lin_vjp W bias x0 None v Input); [reflexivity|].
      rewrite (lin_vjp_in W bias c1 c2 b x0 None SW v Sv). do 2 f_equal. apply tab2_ext. intros. apply bsum_ext. intros. now rewrite J_one.
    Qed.
    Lemma mjp_one r M : t = 1 -> shape M = [b; r; t * c2] -> snd (mjp m h x val (Some M) Input) = Ok (Some (MJ b r (t * c2) (t * c1) J M)).
    Proof.
      intros -> Sv. rewrite !Nat.mul_1_l in *. cbn [mjp snd m leaf_mjp].
      transitivity (lin_mjp W bias x0 None (Some M) Input); [reflexivity|].
      rewrite (lin_mjp_in W bias c1 c2 b x0 None SW r M Sv). do 2 f_equal. apply tab3_ext. intros. apply bsum_ext. intros. now rewrite J_one.
    Qed.
    Lemma jvp_one v : t = 1 -> shape v = [b; t * c1] -> snd (jvp m h x val v Input) = Ok (Some (Jv b (t * c2) (t * c1) J v)).
    Proof.
      intros -> Sv. rewrite !Nat.mul_1_l in *. cbn [jvp snd m leaf_jvp].
      transitivity (lin_jvp W bias x0 None v Input); [reflexivity|].
      rewrite (lin_jvp_in W bias c1 c2 b x0 None SW v Sv). do 2 f_equal. apply tab2_ext. intros. apply bsum_ext. intros. now rewrite J_one.
    Qed.
    Lemma jmp_one c M : t = 1 -> shape M = [b; t * c1; c] -> snd (jmp m h x val (Some M) Input) = Ok (Some (JM b (t * c2) (t * c1) c J M)).
    Proof.
      intros -> Sv. rewrite !Nat.mul_1_l in *. cbn [jmp snd m leaf_jmp].
      transitivity (lin_jmp W bias x0 None (Some M) Input); [reflexivity|].
      rewrite (lin_jmp_in W bias c1 c2 b x0 None SW c M Sv). do 2 f_equal. apply tab3_ext. intros. apply bsum_ext. intros. now rewrite J_one.
    Qed.
    Lemma pull_one fd td db M : t = 1 -> shape M = metric_shape fd b (t * c2) ->
      snd (jTmjp m h x val (VT M) Input fd td db) = Ok (VT (pull b (t * c2) (t * c1) J fd td M)).
    Proof.
      intros -> Sv. rewrite !Nat.mul_1_l in *. destruct x0_fwd as [y0 F0]. cbn [jTmjp snd m leaf_jTmjp to_opt bind].
      assert (E : lin_jTmjp W bias x val (Some M) Input fd td db = lin_jTmjp W bias x0 None (Some M) Input fd td db).
      { unfold lin_jTmjp. rewrite val_ok. unfold lin_val. rewrite F0. reflexivity. }
      rewrite E. rewrite (lin_jTmjp_in W bias c1 c2 b x0 y0 None) by auto. cbn [bind of_opt]. do 2 f_equal. unfold pull, present.
      destruct td; [apply tab2_ext|apply tab3_ext]; intros; unfold pull_at; apply bsum_ext; intros; apply bsum_ext; intros; now rewrite !J_one.
    Qed.
    Lemma push_one fd td db M : t = 1 -> shape M = metric_shape fd b (t * c1) ->
      snd (jmjTp m h x val (VT M) Input fd td db) = Ok (VT (push b (t * c2) (t * c1) J fd td M)).
    Proof.
      intros -> Sv. rewrite !Nat.mul_1_l in *. destruct x0_fwd as [y0 F0]. cbn [jmjTp snd m leaf_jmjTp to_opt bind].
      assert (E : lin_jmjTp W bias x val (Some M) Input fd td db = lin_jmjTp W bias x0 None (Some M) Input fd td db).
      { unfold lin_jmjTp. rewrite val_ok. unfold lin_val. rewrite F0. reflexivity. }
      rewrite E. rewrite (lin_jmjTp_in W bias c1 c2 b x0 y0 None) by auto. cbn [bind of_opt]. do 2 f_equal. unfold push, present.
      destruct td; [apply tab2_ext|apply tab3_ext]; intros; unfold push_at; apply bsum_ext; intros; apply bsum_ext; intros; now rewrite !J_one.
    Qed.

    (** *** any other number of positions *)
    Lemma vjp_many v : t <> 1 -> shape v = [b; t * c2] ->
      (c2 <> 1 -> raises (snd (vjp m h x val v Input))) /\ (c2 = 1 -> misshaped Some (snd (vjp m h x val v Input)) [b; c1] [b; t * c1]).
    Proof.
      intros Ht Sv. apply from_mix; auto; [now apply mix_vjp|]. destruct (size_facts Ht) as (A & A' & _). congruence.
    Qed.
    Lemma mjp_many r M : t <> 1 -> shape M = [b; r; t * c2] ->
      (c2 <> 1 -> raises (snd (mjp m h x val (Some M) Input))) /\ (c2 = 1 -> misshaped Some (snd (mjp m h x val (Some M) Input)) [b; r; c1] [b; r; t * c1]).
    Proof.
      intros Ht Sv. apply from_mix; auto; [now apply mix_mjp|]. destruct (size_facts Ht) as (A & A' & _). congruence.
    Qed.
    Lemma jvp_many v : t <> 1 -> shape v = [b; t * c1] ->
      (c1 <> 1 -> raises (snd (jvp m h x val v Input))) /\ (c1 = 1 -> misshaped Some (snd (jvp m h x val v Input)) [b; c2] [b; t * c2]).
    Proof.
      intros Ht Sv. apply from_mix; auto; [now apply mix_jvp|]. destruct (size_facts Ht) as (A & A' & _). congruence.
    Qed.
    Lemma jmp_many c M : t <> 1 -> shape M = [b; t * c1; c] ->
      (c1 <> 1 -> raises (snd (jmp m h x val (Some M) Input))) /\ (c1 = 1 -> misshaped Some (snd (jmp m h x val (Some M) Input)) [b; c2; c] [b; t * c2; c]).
    Proof.
      intros Ht Sv. apply from_mix; auto; [now apply mix_jmp|]. destruct (size_facts Ht) as (A & A' & _). congruence.
    Qed.
    Lemma pull_many fd td db M : t <> 1 -> shape M = metric_shape fd b (t * c2) ->
      (c2 <> 1 -> raises (snd (jTmjp m h x val (VT M) Input fd td db))) /\
      (c2 = 1 -> misshaped VT (snd (jTmjp m h x val (VT M) Input fd td db)) (metric_shape td b c1) (metric_shape td b (t * c1))).
    Proof.
      intros Ht Sv. destruct (size_facts Ht) as (A & A' & _). cbn [jTmjp snd m leaf_jTmjp to_opt bind]. unfold lin_jTmjp. rewrite val_ok. cbn [bind].
      assert (G : (c2 <> 1 -> raises (match fd, td with
          | false, false => some (einsum "nm,bnj,jk->bmk" [W; M; W])
          | true, false => some (einsum "nm,bn,nk->bmk" [W; M; W])
          | false, true => some (einsum "nm,bnj,jm->bm" [W; M; W])
          | true, true => some (einsum "nm,bn,nm->bm" [W; M; W]) end)) /\ (c2 = 1 -> misshaped Some (match fd, td with
          | false, false => some (einsum "nm,bnj,jk->bmk" [W; M; W])
          | true, false => some (einsum "nm,bn,nk->bmk" [W; M; W])
          | false, true => some (einsum "nm,bnj,jm->bm" [W; M; W])
          | true, true => some (einsum "nm,bn,nm->bm" [W; M; W]) end) (metric_shape td b c1) (metric_shape td b (t * c1)))).
      { destruct fd, td; cbn [metric_shape] in *; apply from_mix; auto; try congruence;
          [now apply mix_pull_dd|now apply mix_pull_df|now apply mix_pull_fd|now apply mix_pull_ff]. }
      destruct G as [G1 G2]. split; intros E.
      - apply raises_bind1. auto.
      - destruct (G2 E) as (u & -> & Su & Nu). exists u. auto.
    Qed.
    Lemma push_many fd td db M : t <> 1 -> shape M = metric_shape fd b (t * c1) ->
      (c1 <> 1 -> raises (snd (jmjTp m h x val (VT M) Input fd td db))) /\
      (c1 = 1 -> misshaped VT (snd (jmjTp m h x val (VT M) Input fd td db)) (metric_shape td b c2) (metric_shape td b (t * c2))).
    Proof.
      intros Ht Sv. destruct (size_facts Ht) as (A & A' & _). cbn [jmjTp snd m leaf_jmjTp to_opt bind]. unfold lin_jmjTp. rewrite val_ok. cbn [bind].
      assert (G : (c1 <> 1 -> raises (match fd, td with
          | false, false => some (einsum "mn,bnj,kj->bmk" [W; M; W])
          | true, false => some (einsum "mn,bn,kn->bmk" [W; M; W])
          | false, true => some (einsum "mn,bnj,mj->bm" [W; M; W])
          | true, true => some (einsum "mn,bn,mn->bm" [W; M; W]) end)) /\ (c1 = 1 -> misshaped Some (match fd, td with
          | false, false => some (einsum "mn,bnj,kj->bmk" [W; M; W])
          | true, false => some (einsum "mn,bn,kn->bmk" [W; M; W])
          | false, true => some (einsum "mn,bnj,mj->bm" [W; M; W])
          | true, true => some (einsum "mn,bn,mn->bm" [W; M; W]) end) (metric_shape td b c2) (metric_shape td b (t * c2)))).
      { destruct fd, td; cbn [metric_shape] in *; apply from_mix; auto; try congruence;
          [now apply mix_push_dd|now apply mix_push_df|now apply mix_push_fd|now apply mix_push_ff]. }
      destruct G as [G1 G2]. split; intros E.
      - apply raises_bind1. auto.
      - destruct (G2 E) as (u & -> & Su & Nu). exists u. auto.
    Qed.
  End Prod.
End P.

Section Main.
  Context {K} `{CR : CRing K}.
  Notation T := (tensor K).
  Lemma rank_rejected (W : T) (bias : option T) (x : T) val mat v h fd td db w : length (shape x) <> 2 ->
    let m := Leaf (Linear W bias) in
    raises (snd (jacobian m h x val w)) /\ raises (snd (mjp m h x val None w)) /\ raises (snd (jmp m h x val None w)) /\
    raises (snd (vjp m h x val v Weight)) /\ raises (snd (jvp m h x val v Weight)) /\
    raises (snd (mjp m h x val (Some v) Weight)) /\ raises (snd (jmp m h x val (Some v) Weight)) /\
    raises (snd (jTmjp m h x val mat Weight fd td db)) /\ raises (snd (jmjTp m h x val mat Weight fd td db)).
  Proof.
    intros R m. cbn [m jacobian mjp jmp vjp jvp jTmjp jmjTp snd leaf_jacobian leaf_mjp leaf_jmp leaf_vjp leaf_jvp leaf_jTmjp leaf_jmjTp].
    split; [now apply lin_jacobian_bad|]. split; [now apply lin_jacobian_bad|]. split; [now apply lin_jacobian_bad|].
    split; [now apply lin_vjp_bad|]. split; [now apply lin_jvp_bad|]. split; [now apply lin_mjp_bad|]. split; [now apply lin_jmp_bad|].
    split; (apply raises_bind; intros mt _; apply raises_bind1); [now apply lin_jTmjp_bad|now apply lin_jmjTp_bad].
  Qed.
  Lemma rank_rejected_none (W : T) (bias : option T) (x y : T) val h fd td db c1 c2 : length (shape x) <> 2 -> shape W = [c2; c1] ->
    let m := Leaf (Linear W bias) in fwd m x = Ok y -> val = None \/ val = Some y ->
    raises (snd (jTmjp m h x val VNone Input fd td db)) /\ raises (snd (jmjTp m h x val VNone Input fd td db)).
  Proof.
    intros R SW m F V. cbn [m jTmjp jmjTp snd leaf_jTmjp leaf_jmjTp to_opt bind]. split; apply raises_bind1.
    - eapply lin_jTmjp_none_bad; eauto. unfold dim. now rewrite SW.
    - now apply lin_jmjTp_none_bad.
  Qed.
  (** vectors and matrices with an unexpected number of dimensions *)
  Lemma rank_vector (W : T) (bias : option T) (x v : T) val h : length (shape v) <> 2 -> let m := Leaf (Linear W bias) in
    raises (snd (vjp m h x val v Input)) /\ raises (snd (jvp m h x val v Input)).
  Proof.
    intros R m. cbn [m vjp jvp snd leaf_vjp leaf_jvp lin_vjp lin_jvp]. split; apply raises_some.
    - eapply einsum_rank1; [vm_compute; reflexivity|auto].
    - eapply einsum_rank2; [vm_compute; reflexivity|auto].
  Qed.

  Section Prod.
    Variables (W : T) (bias : option T) (x y : T) (b : nat) (l : list nat) (c1 c2 : nat) (val : option T) (h : st K).
    Hypothesis (SW : shape W = [c2; c1]) (WW : wf W) (BO : bias_ok bias c2) (H1 : 0 < c1) (H2 : 0 < c2) (Hb : 0 < b).
    Hypothesis (Sx : shape x = b :: l ++ [c1]) (Fy : fwd (Leaf (Linear W bias)) x = Ok y) (V : val = None \/ val = Some y).
    Let m := Leaf (Linear W bias).
    Let t := numel l.
    Let J := block W c1 c2.
    Lemma rank_backward v r M R fd td db : shape v = [b; t * c2] -> shape M = [b; r; t * c2] -> shape R = metric_shape fd b (t * c2) -> t = 1 \/ c2 <> 1 ->
      right_or_raises (snd (vjp m h x val v Input)) (Some (vJ b (t * c2) (t * c1) J v)) /\
      right_or_raises (snd (mjp m h x val (Some M) Input)) (Some (MJ b r (t * c2) (t * c1) J M)) /\
      right_or_raises (snd (jTmjp m h x val (VT R) Input fd td db)) (VT (pull b (t * c2) (t * c1) J fd td R)).
    Proof.
      intros Sv SM SR Ht. destruct (Nat.eq_dec t 1) as [E|E].
      - repeat split; left; [now apply vjp_one|now apply mjp_one|eapply pull_one; eauto].
      - destruct Ht as [Ht|Ht]; [contradiction|]. repeat split; right; [eapply vjp_many; eauto|eapply mjp_many; eauto|eapply pull_many; eauto].
    Qed.
    Lemma rank_forward v r M R fd td db : shape v = [b; t * c1] -> shape M = [b; t * c1; r] -> shape R = metric_shape fd b (t * c1) -> t = 1 \/ c1 <> 1 ->
      right_or_raises (snd (jvp m h x val v Input)) (Some (Jv b (t * c2) (t * c1) J v)) /\
      right_or_raises (snd (jmp m h x val (Some M) Input)) (Some (JM b (t * c2) (t * c1) r J M)) /\
      right_or_raises (snd (jmjTp m h x val (VT R) Input fd td db)) (VT (push b (t * c2) (t * c1) J fd td R)).
    Proof.
      intros Sv SM SR Ht. destruct (Nat.eq_dec t 1) as [E|E].
      - repeat split; left; [now apply jvp_one|now apply jmp_one|eapply push_one; eauto].
      - destruct Ht as [Ht|Ht]; [contradiction|]. repeat split; right; [eapply jvp_many; eauto|eapply jmp_many; eauto|eapply push_many; eauto].
    Qed.
    Lemma rank_one v r M R v' r' M' R' fd td db : t = 1 ->
      shape v = [b; t * c2] -> shape M = [b; r; t * c2] -> shape R = metric_shape fd b (t * c2) ->
      shape v' = [b; t * c1] -> shape M' = [b; t * c1; r'] -> shape R' = metric_shape fd b (t * c1) ->
      snd (vjp m h x val v Input) = Ok (Some (vJ b (t * c2) (t * c1) J v)) /\
      snd (mjp m h x val (Some M) Input) = Ok (Some (MJ b r (t * c2) (t * c1) J M)) /\
      snd (jTmjp m h x val (VT R) Input fd td db) = Ok (VT (pull b (t * c2) (t * c1) J fd td R)) /\
      snd (jvp m h x val v' Input) = Ok (Some (Jv b (t * c2) (t * c1) J v')) /\
      snd (jmp m h x val (Some M') Input) = Ok (Some (JM b (t * c2) (t * c1) r' J M')) /\
      snd (jmjTp m h x val (VT R') Input fd td db) = Ok (VT (push b (t * c2) (t * c1) J fd td R')).
    Proof.
      intros E. intros. split; [now apply vjp_one|]. split; [now apply mjp_one|]. split; [eapply pull_one; eauto|].
      split; [now apply jvp_one|]. split; [now apply jmp_one|]. eapply push_one; eauto.
    Qed.
    Lemma rank_wrong_backward v r M R fd td db : shape v = [b; t * c2] -> shape M = [b; r; t * c2] -> shape R = metric_shape fd b (t * c2) -> t <> 1 -> c2 = 1 ->
      misshaped Some (snd (vjp m h x val v Input)) [b; c1] [b; t * c1] /\
      misshaped Some (snd (mjp m h x val (Some M) Input)) [b; r; c1] [b; r; t * c1] /\
      misshaped VT (snd (jTmjp m h x val (VT R) Input fd td db)) (metric_shape td b c1) (metric_shape td b (t * c1)).
    Proof. intros Sv SM SR E1 E2. split; [|split]; [eapply vjp_many; eauto|eapply mjp_many; eauto|eapply pull_many; eauto]. Qed.
    Lemma rank_wrong_forward v r M R fd td db : shape v = [b; t * c1] -> shape M = [b; t * c1; r] -> shape R = metric_shape fd b (t * c1) -> t <> 1 -> c1 = 1 ->
      misshaped Some (snd (jvp m h x val v Input)) [b; c2] [b; t * c2] /\
      misshaped Some (snd (jmp m h x val (Some M) Input)) [b; c2; r] [b; t * c2; r] /\
      misshaped VT (snd (jmjTp m h x val (VT R) Input fd td db)) (metric_shape td b c2) (metric_shape td b (t * c2)).
    Proof. intros Sv SM SR E1 E2. split; [|split]; [eapply jvp_many; eauto|eapply jmp_many; eauto|eapply push_many; eauto]. Qed.
  End Prod.
End Main.

Section Wrap.
Lemma rank_backward_all : forall (K : Type) (N : Num K) (CR : CRing K) (W : tensor K) (bias : option (tensor K)) (x y : tensor K) b l c1 c2 val h
    (v : tensor K) r (M R : tensor K) fd td db,
  shape W = [c2; c1] -> bias_ok bias c2 -> 0 < c1 -> 0 < c2 -> 0 < b -> shape x = b :: l ++ [c1] ->
  let m := Leaf (Linear W bias) in let J := block W c1 c2 in let t := numel l in fwd m x = Ok y -> val = None \/ val = Some y ->
  shape v = [b; t * c2] -> shape M = [b; r; t * c2] -> shape R = metric_shape fd b (t * c2) -> t = 1 \/ c2 <> 1 ->
  right_or_raises (snd (vjp m h x val v Input)) (Some (vJ b (t * c2) (t * c1) J v)) /\
  right_or_raises (snd (mjp m h x val (Some M) Input)) (Some (MJ b r (t * c2) (t * c1) J M)) /\
  right_or_raises (snd (jTmjp m h x val (VT R) Input fd td db)) (VT (pull b (t * c2) (t * c1) J fd td R)).
Proof. intros. eapply rank_backward; eauto. Qed.
Lemma rank_forward_all : forall (K : Type) (N : Num K) (CR : CRing K) (W : tensor K) (bias : option (tensor K)) (x y : tensor K) b l c1 c2 val h
    (v : tensor K) r (M R : tensor K) fd td db,
  shape W = [c2; c1] -> bias_ok bias c2 -> 0 < c1 -> 0 < c2 -> 0 < b -> shape x = b :: l ++ [c1] ->
  let m := Leaf (Linear W bias) in let J := block W c1 c2 in let t := numel l in fwd m x = Ok y -> val = None \/ val = Some y ->
  shape v = [b; t * c1] -> shape M = [b; t * c1; r] -> shape R = metric_shape fd b (t * c1) -> t = 1 \/ c1 <> 1 ->
  right_or_raises (snd (jvp m h x val v Input)) (Some (Jv b (t * c2) (t * c1) J v)) /\
  right_or_raises (snd (jmp m h x val (Some M) Input)) (Some (JM b (t * c2) (t * c1) r J M)) /\
  right_or_raises (snd (jmjTp m h x val (VT R) Input fd td db)) (VT (push b (t * c2) (t * c1) J fd td R)).
Proof. intros. eapply rank_forward; eauto. Qed.
Lemma rank_one_all : forall (K : Type) (N : Num K) (CR : CRing K) (W : tensor K) (bias : option (tensor K)) (x y : tensor K) b l c1 c2 val h
    (v : tensor K) r (M R v' : tensor K) r' (M' R' : tensor K) fd td db,
  shape W = [c2; c1] -> bias_ok bias c2 -> 0 < c1 -> 0 < c2 -> 0 < b -> shape x = b :: l ++ [c1] ->
  let m := Leaf (Linear W bias) in let J := block W c1 c2 in let t := numel l in fwd m x = Ok y -> val = None \/ val = Some y -> t = 1 ->
  shape v = [b; t * c2] -> shape M = [b; r; t * c2] -> shape R = metric_shape fd b (t * c2) ->
  shape v' = [b; t * c1] -> shape M' = [b; t * c1; r'] -> shape R' = metric_shape fd b (t * c1) ->
  snd (vjp m h x val v Input) = Ok (Some (vJ b (t * c2) (t * c1) J v)) /\
  snd (mjp m h x val (Some M) Input) = Ok (Some (MJ b r (t * c2) (t * c1) J M)) /\
  snd (jTmjp m h x val (VT R) Input fd td db) = Ok (VT (pull b (t * c2) (t * c1) J fd td R)) /\
  snd (jvp m h x val v' Input) = Ok (Some (Jv b (t * c2) (t * c1) J v')) /\
  snd (jmp m h x val (Some M') Input) = Ok (Some (JM b (t * c2) (t * c1) r' J M')) /\
  snd (jmjTp m h x val (VT R') Input fd td db) = Ok (VT (push b (t * c2) (t * c1) J fd td R')).
Proof. intros. eapply rank_one; eauto. Qed.
Lemma rank_wrong_backward_all : forall (K : Type) (N : Num K) (CR : CRing K) (W : tensor K) (bias : option (tensor K)) (x y : tensor K) b l c1 c2 val h
    (v : tensor K) r (M R : tensor K) fd td db,
  shape W = [c2; c1] -> 0 < c1 -> 0 < c2 -> 0 < b -> shape x = b :: l ++ [c1] ->
  let m := Leaf (Linear W bias) in let t := numel l in fwd m x = Ok y -> val = None \/ val = Some y ->
  shape v = [b; t * c2] -> shape M = [b; r; t * c2] -> shape R = metric_shape fd b (t * c2) -> t <> 1 -> c2 = 1 ->
  misshaped Some (snd (vjp m h x val v Input)) [b; c1] [b; t * c1] /\
  misshaped Some (snd (mjp m h x val (Some M) Input)) [b; r; c1] [b; r; t * c1] /\
  misshaped VT (snd (jTmjp m h x val (VT R) Input fd td db)) (metric_shape td b c1) (metric_shape td b (t * c1)).
Proof. intros. eapply rank_wrong_backward; eauto. Qed.
Lemma rank_wrong_forward_all : forall (K : Type) (N : Num K) (CR : CRing K) (W : tensor K) (bias : option (tensor K)) (x y : tensor K) b l c1 c2 val h
    (v : tensor K) r (M R : tensor K) fd td db,
  shape W = [c2; c1] -> 0 < c1 -> 0 < c2 -> 0 < b -> shape x = b :: l ++ [c1] ->
  let m := Leaf (Linear W bias) in let t := numel l in fwd m x = Ok y -> val = None \/ val = Some y ->
  shape v = [b; t * c1] -> shape M = [b; t * c1; r] -> shape R = metric_shape fd b (t * c1) -> t <> 1 -> c1 = 1 ->
  misshaped Some (snd (jvp m h x val v Input)) [b; c2] [b; t * c2] /\
  misshaped Some (snd (jmp m h x val (Some M) Input)) [b; c2; r] [b; t * c2; r] /\
  misshaped VT (snd (jmjTp m h x val (VT R) Input fd td db)) (metric_shape td b c2) (metric_shape td b (t * c2)).
Proof. intros. eapply rank_wrong_forward; eauto. Qed.
End Wrap.
