(** A Linear layer on inputs of any rank. *)
From Coq Require Import String Ascii List Arith ZArith Lia Bool.
From Verif Require Import Scalar Sums Tensor TensorLemmas EinsumLemmas Conv Abstract Simple LinearLayer ConvLayer PoolLayer
  Module Spec Domain OpLemmas ReshapeLemmas Jac LeafSpec LeafSimple LeafLinear RankSpec.
Import ListNotations.
Local Open Scope nat_scope.
Local Open Scope list_scope.

Lemma ravel_snoc s c : forall idx k, valid s idx -> ravel (s ++ [c]) (idx ++ [k]) = ravel s idx * c + k.
Proof.
  induction s as [|d s IH]; intros [|i idx] k V; cbn in V; try contradiction.
  - cbn [app ravel]. rewrite numel_nil. lia.
  - destruct V as [_ V]. cbn [app ravel]. rewrite IH by auto. rewrite numel_app, numel_cons, numel_nil. nia.
Qed.
Lemma valid_snoc s c : forall idx k, valid s idx -> k < c -> valid (s ++ [c]) (idx ++ [k]).
Proof.
  induction s as [|d s IH]; intros [|i idx] k V Hk; cbn in V; try contradiction.
  - cbn. auto.
  - destruct V as [Hi V]. cbn [app valid]. auto.
Qed.
Lemma removelast_snoc {A} (l : list A) a : removelast (l ++ [a]) = l.
Proof. rewrite removelast_app by discriminate. cbn. apply app_nil_r. Qed.

Section P.
  Context {K} `{CR : CRing K}.
  Add Ring Kring : (cring : ring_theory n0 n1 nadd nmul nsub nopp (@eq K)).
  Notation gt := (get (@n0 K _)).
  Notation T := (tensor K).

  Lemma lin_forward_any (W : T) (bias : option T) (x : T) lead c1 c2 : shape W = [c2; c1] -> bias_ok bias c2 -> shape x = lead ++ [c1] ->
    exists y, lin_forward W bias x = Ok y /\ wf y /\ shape y = lead ++ [c2] /\
      forall n k, valid lead n -> k < c2 ->
        gt y (n ++ [k]) = nadd (bsum c1 (fun j => nmul (gt x (n ++ [j])) (gt W [k; j]))) (bias_at bias k).
  Proof.
    intros SW BO Sx.
    assert (Bc : (match bias with Some t => shape_eqb (shape t) [c2] | None => true end) = true).
    { destruct bias as [t|]; [|reflexivity]. destruct BO as [-> _]. apply shape_eqb_refl. }
    assert (G : forall n k, nadd (bsum c1 (fun j => nmul (gt x (n ++ [j])) (gt W [k; j]))) (bias_at bias k) =
              let s := bsum c1 (fun j => nmul (gt x (n ++ [j])) (gt W [k; j])) in match bias with Some t => nadd s (gt t [k]) | None => s end).
    { intros. unfold bias_at. destruct bias; cbv zeta; [reflexivity|]. ring. }
    destruct lead as [|b [|d lead]].
    - unfold lin_forward. rewrite Sx, SW. cbn [app last removelast]. rewrite Nat.eqb_refl, Bc. cbn [check].
      eexists. split; [reflexivity|]. split; [apply wf_tab|]. split; [reflexivity|].
      intros n k V Hk. rewrite get_tab by (apply (valid_snoc [] c2); auto). rewrite removelast_snoc, last_last. symmetry. apply G.
    - unfold lin_forward. rewrite Sx, SW. cbn [app]. rewrite Nat.eqb_refl, Bc. cbn [check].
      eexists. split; [reflexivity|]. split; [apply wf_tab|]. split; [reflexivity|].
      intros n k V Hk. destruct n as [|i [|? ?]]; cbn in V; try (exfalso; tauto). cbn [app]. rewrite get_tab2 by tauto. symmetry. apply (G [i]).
    - unfold lin_forward. rewrite Sx, SW. cbn [app].
      change (b :: d :: lead ++ [c1]) with ((b :: d :: lead) ++ [c1]).
      assert (E : exists e r, lead ++ [c1] = e :: r) by (destruct lead; cbn; eauto). destruct E as (e & r & E). rewrite last_last, removelast_snoc. 
      rewrite E. cbv iota. rewrite Nat.eqb_refl, Bc. cbn [check].
      eexists. split; [reflexivity|]. split; [apply wf_tab|]. split; [reflexivity|].
      intros n k V Hk. rewrite get_tab by (apply valid_snoc; auto). rewrite removelast_snoc, last_last. symmetry. apply G.
  Qed.

  (** sums against the block matrix *)
  Lemma block_row (W : T) c1 c2 t q i (f : nat -> K) : 0 < c1 -> 0 < c2 -> i < t * c2 ->
    bsum (t * c1) (fun j => nmul (block W c1 c2 q i j) (f j)) = bsum c1 (fun j => nmul (gt W [i mod c2; j]) (f (i / c2 * c1 + j))).
  Proof.
    intros H1 H2 Hi. rewrite bsum_prod. assert (D : i / c2 < t) by (apply Nat.div_lt_upper_bound; lia).
    rewrite (bsum_single t (i / c2)); auto.
    - apply bsum_ext. intros j Hj. unfold block. destruct (divmod_flat c1 (i / c2) j Hj) as [-> ->]. now rewrite Nat.eqb_refl.
    - intros k Hk Nk. apply bsum_0. intros j Hj. unfold block. destruct (divmod_flat c1 k j Hj) as [-> ->].
      destruct (Nat.eqb_spec (i / c2) k) as [E|E]; [congruence|]. ring.
  Qed.
  Lemma lin_forward_flat (W : T) (bias : option T) (x : T) b l c1 c2 : shape W = [c2; c1] -> bias_ok bias c2 -> shape x = b :: l ++ [c1] -> 0 < c1 -> 0 < c2 ->
    exists y, lin_forward W bias x = Ok y /\ wf y /\ shape y = b :: l ++ [c2] /\
      forall q i, q < b -> i < numel l * c2 ->
        fl (numel l * c2) y q i =
        nadd (bsum (numel l * c1) (fun j => nmul (block W c1 c2 q i j) (fl (numel l * c1) x q j))) (bias_at bias (i mod c2)).
  Proof.
    intros SW BO Sx H1 H2. change (b :: l ++ [c1]) with ((b :: l) ++ [c1]) in Sx.
    destruct (lin_forward_any W bias x (b :: l) c1 c2 SW BO Sx) as (y & Fy & Wy & Sy & G). exists y. repeat split; auto.
    intros q i Hq Hi. set (t := numel l) in *.
    assert (D : i / c2 < t) by (apply Nat.div_lt_upper_bound; lia).
    assert (M : i mod c2 < c2) by (apply Nat.mod_upper_bound; lia).
    assert (L : q * t + i / c2 < numel (b :: l)) by (rewrite numel_cons; fold t; nia).
    pose (n := unravel (b :: l) (q * t + i / c2)). assert (Vn : valid (b :: l) n) by (apply unravel_valid; auto).
    assert (Rn : ravel (b :: l) n = q * t + i / c2) by (apply ravel_unravel; auto).
    specialize (G n (i mod c2) Vn M). unfold get in G at 1. rewrite Sy, ravel_snoc, Rn in G by auto.
    replace (fl (t * c2) y q i) with (nth ((q * t + i / c2) * c2 + i mod c2) (data y) n0).
    2:{ unfold fl. f_equal. assert (E := Nat.div_mod i c2 ltac:(lia)). nia. }
    rewrite G. f_equal. rewrite block_row by auto. apply bsum_ext. intros j Hj.
    assert (E : gt x (n ++ [j]) = fl (t * c1) x q (i / c2 * c1 + j)).
    { unfold get. rewrite Sx, ravel_snoc, Rn by auto. unfold fl. f_equal. nia. }
    rewrite E. ring.
  Qed.

  (** *** inputs that are not matrices are rejected *)
  Lemma unpack2_bad (t : T) : length (shape t) <> 2 -> exists e, unpack2 t = Raise e.
  Proof. intros Hl. unfold unpack2. destruct (shape t) as [|a [|c [|d r]]]; cbn in Hl; try lia; eauto. Qed.
  Lemma tmul_self (x : T) : exists u, tmul x x = Ok u /\ shape u = shape x.
  Proof. unfold tmul, bop. rewrite bshape_refl. eexists. split; [reflexivity|]. cbn. apply rev_involutive. Qed.
  Lemma sizes_raise ins (ts : list T) e : (exists e', sizes ins ts (Raise e) = Raise e').
  Proof.
    revert ts. induction ins as [|l ins IH]; intros [|t ts]; cbn; eauto. destruct (Nat.eqb _ _); [|eauto]. destruct (own_sizes _); [|eauto].
    assert (E : fold_left add_size (combine l (shape t)) (Raise e) = Raise e) by (induction (combine l (shape t)); cbn; auto).
    rewrite E. apply IH.
  Qed.
  Lemma einsum_rank1 s l ins out (t : T) ts : parse_einsum s = Some (l :: ins, out) -> length (shape t) <> length l -> raises (einsum s (t :: ts)).
  Proof.
    intros P L. unfold einsum, raises. rewrite P. unfold sizes, rank. destruct (Nat.eqb_spec (length l) (length (shape t))); [congruence|]. cbn. eauto.
  Qed.
  Lemma einsum_rank2 s l l' ins out (t u : T) ts : parse_einsum s = Some (l :: l' :: ins, out) -> length (shape u) <> length l' -> raises (einsum s (t :: u :: ts)).
  Proof.
    intros P L. unfold einsum, raises. rewrite P. cbn [sizes]. unfold rank.
    destruct (Nat.eqb (length l) (length (shape t))); [|cbn; eauto]. destruct (own_sizes _); [|cbn; eauto].
    destruct (Nat.eqb_spec (length l') (length (shape u))); [congruence|]. cbn. eauto.
  Qed.
  Lemma raises_bind {A B} (r : res A) (f : A -> res B) : (forall a, r = Ok a -> raises (f a)) -> raises (bind r f).
  Proof. intros Hf. destruct r as [a|e]; cbn; [auto|unfold raises; eauto]. Qed.
  Lemma raises_bind1 {A B} (r : res A) (f : A -> res B) : raises r -> raises (bind r f).
  Proof. intros [e ->]. cbn. unfold raises. eauto. Qed.
  Lemma raises_some (r : res T) : raises r -> raises (some r).
  Proof. intros [e ->]. cbn. unfold raises. eauto. Qed.
  Lemma raises_check {A} b e (r : res A) : raises r -> raises (check b e r).
  Proof. intros Hr. unfold check. destruct b; auto. unfold raises. eauto. Qed.

  Section Bad.
    Variables (W : T) (bias : option T) (x : T).
    Hypothesis (Rx : length (shape x) <> 2).
    Lemma lin_jacobian_bad val w : raises (lin_jacobian W bias x val w).
    Proof. unfold lin_jacobian. apply raises_bind1. apply unpack2_bad; auto. Qed.
    Lemma lin_vjp_bad val v : raises (lin_vjp W bias x val v Weight).
    Proof. unfold lin_vjp. apply raises_bind1. apply unpack2_bad; auto. Qed.
    Lemma lin_jvp_bad val v : raises (lin_jvp W bias x val v Weight).
    Proof. unfold lin_jvp. apply raises_bind1. apply unpack2_bad; auto. Qed.
    Lemma lin_mjp_bad val m : raises (lin_mjp W bias x val m Weight).
    Proof. unfold lin_mjp. destruct m; [|apply lin_jacobian_bad]. apply raises_bind1. apply unpack2_bad; auto. Qed.
    Lemma lin_jmp_bad val m : raises (lin_jmp W bias x val m Weight).
    Proof. unfold lin_jmp. destruct m; [|apply lin_jacobian_bad]. apply raises_bind1. apply unpack2_bad; auto. Qed.
    Lemma lin_jmjTp_full_bad val m : raises (lin_jmjTp_full W bias x val m).
    Proof. unfold lin_jmjTp_full. apply raises_bind. intros. apply raises_bind1. apply lin_jmp_bad. Qed.
    Lemma lin_jTmjp_full_bad val m : raises (lin_jTmjp_full W bias x val m).
    Proof. unfold lin_jTmjp_full. apply raises_bind. intros. apply raises_bind1. apply lin_mjp_bad. Qed.
    Lemma lin_jmjTp_diag_bad val m : raises (lin_jmjTp_diag bias x val m).
    Proof.
      unfold lin_jmjTp_diag. apply raises_bind. intros [bs ?] _. apply raises_bind. intros k1 _. apply raises_bind. intros k2 _.
      destruct (tmul_self x) as (u & -> & Su). cbn [bind]. destruct bias.
      - apply raises_bind. intros. apply raises_bind. intros. apply raises_bind1. eapply einsum_rank1; [vm_compute; reflexivity|]. rewrite Su. auto.
      - apply raises_bind. intros. eapply einsum_rank1; [vm_compute; reflexivity|]. rewrite Su. auto.
    Qed.
    Lemma lin_jTmjp_df_bad m : raises (lin_jTmjp_df bias x m).
    Proof. unfold lin_jTmjp_df. apply raises_bind1. apply unpack2_bad; auto. Qed.
    Lemma lin_jTmjp_fd_bad m : raises (lin_jTmjp_fd bias x m).
    Proof.
      unfold lin_jTmjp_fd. apply raises_bind. intros [[? ?] ?] _. destruct (tmul_self x) as (u & -> & Su). cbn [bind].
      apply raises_bind1. eapply einsum_rank1; [vm_compute; reflexivity|]. rewrite Su. auto.
    Qed.
    Lemma lin_jTmjp_dd_bad m : raises (lin_jTmjp_dd bias x m).
    Proof.
      unfold lin_jTmjp_dd. apply raises_bind. intros [? ?] _. destruct (tmul_self x) as (u & -> & Su). cbn [bind].
      apply raises_bind1. eapply einsum_rank1; [vm_compute; reflexivity|]. rewrite Su. auto.
    Qed.
    Lemma lin_jTmjp_bad val m fd td db : raises (lin_jTmjp W bias x val m Weight fd td db).
    Proof.
      unfold lin_jTmjp. apply raises_bind. intros y _. destruct m as [m|]; [destruct fd|]; destruct td; apply raises_some;
        auto using lin_jTmjp_full_bad, lin_jTmjp_df_bad, lin_jTmjp_fd_bad, lin_jTmjp_dd_bad.
    Qed.
    Lemma lin_jmjTp_bad val m fd td db : raises (lin_jmjTp W bias x val m Weight fd td db).
    Proof.
      unfold lin_jmjTp. apply raises_bind. intros y _. apply raises_bind. intros [m' fd'] _.
      destruct fd', td; apply raises_some; auto using lin_jmjTp_diag_bad, lin_jmjTp_full_bad, raises_bind1.
    Qed.
    Lemma lin_jmjTp_none_bad val fd td db : raises (lin_jmjTp W bias x val None Input fd td db).
    Proof.
      unfold lin_jmjTp. apply raises_bind. intros y _.
      destruct td; apply raises_some; (eapply einsum_rank2; [vm_compute; reflexivity|]); cbn; auto.
    Qed.
    Lemma lin_forward_bad_rank y : shape W = [dim W 0; dim W 1] -> lin_forward W bias x = Ok y -> length (shape y) <> 2.
    Proof.
      intros SW F. unfold lin_forward in F. rewrite SW in F. destruct (shape x) as [|a [|c [|d r]]] eqn:Sx; try discriminate; try (cbn in Rx; lia);
        unfold check in F; destruct (Nat.eqb _ _); try discriminate; destruct (match bias with Some _ => _ | None => _ end); try discriminate;
        injection F as <-; cbn [shape tab]; [cbn; lia|]. cbn [removelast]. destruct r as [|e r]; [cbn; lia|]. cbn. lia.
    Qed.
    Lemma lin_jTmjp_none_bad val y fd td db : shape W = [dim W 0; dim W 1] -> lin_forward W bias x = Ok y -> val = None \/ val = Some y ->
      raises (lin_jTmjp W bias x val None Input fd td db).
    Proof.
      intros SW F V. unfold lin_jTmjp. replace (lin_val W bias x val) with (@Ok T y) by (destruct V as [-> | ->]; cbn; auto). cbn [bind].
      assert (R := lin_forward_bad_rank y SW F).
      destruct td; apply raises_some; (eapply einsum_rank2; [vm_compute; reflexivity|]); cbn; auto.
    Qed.
  End Bad.
End P.
