(** The diagonal modes of jTmjp of a custom layer are right exactly for symmetric jacobians. *)
From Coq Require Import List Arith Lia Bool Reals.
From Verif Require Import Scalar Sums Tensor TensorLemmas Abstract Simple Module Spec Domain OpLemmas Jac LeafSpec LayerExact.
Import ListNotations.
Local Open Scope nat_scope.
Local Open Scope list_scope.

Section CI.
  Context {K} `{CR : CRing K}.
  Add Ring Kring : (cring : ring_theory n0 n1 nadd nmul nsub nopp (@eq K)).
  Notation gt := (get (@n0 K _)).
  Notation T := (tensor K).
  Hypothesis (Hdec : forall x y : K, x = y \/ x <> y) (Hint : forall x y : K, nmul x y = n0 -> x = n0 \/ y = n0).

  Lemma pick_one n a c (f g : nat -> K) (M : nat -> nat -> K) : a < n -> c < n ->
    (forall i k, i < n -> k < n -> M i k = if Nat.eqb i a && Nat.eqb k c then n1 else n0) ->
    bsum n (fun i => bsum n (fun k => nmul (nmul (f i) (M i k)) (g k))) = nmul (f a) (g c).
  Proof.
    intros Ha Hc E. rewrite (bsum_single n a); auto.
    - rewrite (bsum_single n c); auto; [rewrite E, !Nat.eqb_refl by auto; cbn; ring|].
      intros k Hk Nk. rewrite E by auto. destruct (Nat.eqb_spec k c); [congruence|]. rewrite andb_false_r. ring.
    - intros i Hi Ni. apply bsum_0. intros k Hk. rewrite E by auto. destruct (Nat.eqb_spec i a); [congruence|]. cbn [andb]. ring.
  Qed.
  Lemma cancel x y z : nmul x z = nmul y z -> z <> n0 -> x = y.
  Proof.
    intros E Nz. assert (Z : nmul (nsub x y) z = n0) by (transitivity (nsub (nmul x z) (nmul y z)); [ring|rewrite E; ring]).
    destruct (Hint _ _ Z) as [Z'|Z']; [|congruence]. transitivity (nadd (nsub x y) y); [ring|rewrite Z'; ring].
  Qed.
  Definition one_hot (fd : bool) (b n q a c : nat) : T :=
    if fd then tab2 b n (fun q' i => if Nat.eqb q' q && Nat.eqb i a then n1 else n0)
    else tab3 b n n (fun q' i k => if Nat.eqb q' q && (Nat.eqb i a && Nat.eqb k c) then n1 else n0).
  Lemma one_hot_metric fd b n q a c i k : q < b -> i < n -> k < n -> (fd = true -> a = c) ->
    metric fd (one_hot fd b n q a c) q i k = if Nat.eqb i a && Nat.eqb k c then n1 else n0.
  Proof.
    intros Hq Hi Hk Hf. unfold metric, one_hot. destruct fd.
    - rewrite get_tab2 by auto. rewrite Nat.eqb_refl, <- Hf by auto. cbn [andb]. destruct (Nat.eqb_spec i k), (Nat.eqb_spec i a), (Nat.eqb_spec k a); subst; auto; congruence.
    - rewrite get_tab3 by auto. now rewrite Nat.eqb_refl.
  Qed.
  Lemma present_eq td b n (A B : nat -> nat -> nat -> K) : present td b n A = present td b n B -> forall q i j, q < b -> i < n -> j < n -> (td = true -> i = j) -> A q i j = B q i j.
  Proof.
    intros E q i j Hq Hi Hj Ht. unfold present in E. destruct td.
    - rewrite <- (Ht eq_refl) in *. assert (E' := f_equal (fun t => gt t [q; i]) E). cbn beta in E'. rewrite !get_tab2 in E' by auto. exact E'.
    - assert (E' := f_equal (fun t => gt t [q; i; j]) E). cbn beta in E'. rewrite !get_tab3 in E' by auto. exact E'.
  Qed.

  (** J M J = J^T M J for every M of the mode forces J = J^T *)
  Lemma symmetric_of_modes b n (J : nat -> nat -> nat -> K) fd td : fd || td = true ->
    (forall M, shape M = metric_shape fd b n -> sandwich b n J fd td M = pull b n n J fd td M) ->
    forall q i j, q < b -> i < n -> j < n -> J q i j = J q j i.
  Proof.
    intros Hf E q i j Hq Hi Hj.
    (* the instance of E at the one-hot metric (a, c) and result (u, v) *)
    assert (P : forall a c u v, a < n -> c < n -> u < n -> v < n -> (fd = true -> a = c) -> (td = true -> u = v) -> nmul (J q u a) (J q c v) = nmul (J q a u) (J q c v)).
    { intros a c u v Ha Hc Hu Hv H1 H2. assert (E1 := E (one_hot fd b n q a c) ltac:(unfold one_hot, metric_shape; destruct fd; reflexivity)).
      assert (E2 := present_eq td b n _ _ E1 q u v Hq Hu Hv H2). cbn beta in E2. unfold pull_at in E2.
      rewrite (pick_one n a c (fun i => J q u i) (fun k => J q k v) (metric fd (one_hot fd b n q a c) q)) in E2; auto using one_hot_metric.
      rewrite (pick_one n a c (fun i => J q i u) (fun k => J q k v) (metric fd (one_hot fd b n q a c) q)) in E2; auto using one_hot_metric. }
    destruct (Hdec (J q i j) (J q j i)) as [|Ne]; auto. exfalso.
    (* if J i j <> J j i then both vanish *)
    assert (Z : forall i j, i < n -> j < n -> J q i j <> J q j i -> J q j i = n0).
    { intros i' j' Hi' Hj' N'. destruct (Hdec (J q j' i') n0) as [|Nz]; auto. exfalso. apply N'.
      destruct fd, td; try discriminate.
      - apply (cancel _ _ (J q j' i')); auto.
      - apply (cancel _ _ (J q j' i')); auto; apply P; auto; discriminate.
      - apply (cancel _ _ (J q j' i')); auto; apply P; auto; discriminate. }
    apply Ne. rewrite (Z i j Hi Hj Ne). apply Z; auto.
  Qed.

  Lemma custom_modes_iff (cu : custom K) x val w (J : T) b n (s : st K) :
    cu_jacobian cu x val w = Ok (Some J) -> shape J = [b; n; n] ->
    forall fd td db, flags_ok fd td db -> fd || td = true ->
    ((forall M, shape M = metric_shape fd b n ->
        snd (jTmjp (Leaf (Custom cu)) s x val (VT M) w fd td db) = Ok (VT (pull b n n (entry J) fd td M))) <->
     forall q i j, q < b -> i < n -> j < n -> entry J q i j = entry J q j i).
  Proof.
    intros EJ SJ fd td db Fl Hf. split.
    - intros A. apply (symmetric_of_modes b n (entry J) fd td Hf). intros M SM.
      pose proof (custom_diag_modes cu x val w J b n s EJ SJ fd td db M Fl Hf SM) as B. rewrite (A M SM) in B. now injection B.
    - intros Sy M SM. now apply custom_sym_exact.
  Qed.
End CI.
