(** reshape with integers, one of which may be -1. *)
From Coq Require Import List Arith ZArith Lia Bool.
From Verif Require Import Scalar Tensor TensorLemmas Domain.
Import ListNotations.
Local Open Scope nat_scope.
Local Open Scope list_scope.

Local Notation m1 := (Z.eqb (-1)).
Lemma m1_nat k : m1 (Z.of_nat k) = false.
Proof. apply Z.eqb_neq. lia. Qed.
Lemma filter_nat s : filter m1 (map Z.of_nat s) = [].
Proof. induction s as [|k s IH]; cbn [map filter]; auto. now rewrite m1_nat. Qed.
Lemma filter_other s : filter (fun d => negb (m1 d)) (map Z.of_nat s) = map Z.of_nat s.
Proof. induction s as [|k s IH]; cbn [map filter]; auto. rewrite m1_nat. cbn [negb]. now rewrite IH. Qed.
Lemma low_nat s : existsb (fun d => Z.ltb d (-1)) (map Z.of_nat s) = false.
Proof. induction s as [|k s IH]; cbn [map existsb]; auto. rewrite IH, orb_false_r. apply Z.ltb_ge. lia. Qed.
Lemma to_of s : map Z.to_nat (map Z.of_nat s) = s.
Proof. rewrite map_map. rewrite <- map_id. apply map_ext. apply Nat2Z.id. Qed.

(** the two kinds of arguments that are not refused at once *)
Lemma match_cases d s : dims_match d s = true ->
  d = map Z.of_nat s \/ exists s1 k s2, d = map Z.of_nat s1 ++ (-1)%Z :: map Z.of_nat s2 /\ s = s1 ++ k :: s2.
Proof.
  unfold dims_match. intros H. apply andb_true_iff in H as [C M]. apply Nat.leb_le in C. revert s M C.
  induction d as [|z d IH]; intros [|k s] M C; cbn in M; try discriminate; [now left|].
  apply andb_true_iff in M as [Z M]. apply orb_true_iff in Z. cbn [filter] in C. destruct (m1 z) eqn:E.
  - apply Z.eqb_eq in E. subst z. right. exists [], k, s. split; [|reflexivity]. cbn [map app]. f_equal. cbn in C.
    assert (C0 : length (filter m1 d) = 0) by lia. clear - C0 M. revert s M C0. induction d as [|z d IH]; intros [|k s] M C; cbn in M; try discriminate; auto.
    apply andb_true_iff in M as [Z M]. apply orb_true_iff in Z. cbn [filter] in C. destruct (m1 z) eqn:E; [discriminate|].
    destruct Z as [Z|Z]; apply Z.eqb_eq in Z; [|subst; discriminate]. cbn. f_equal; auto.
  - destruct Z as [Z|Z]; apply Z.eqb_eq in Z; [|subst; discriminate].
    destruct (IH s M C) as [-> | (s1 & k' & s2 & -> & ->)]; [left; subst; reflexivity|].
    right. exists (k :: s1), k', s2. split; [subst; reflexivity|reflexivity].
Qed.
Lemma match_nat s : dims_match (map Z.of_nat s) s = true.
Proof.
  unfold dims_match. rewrite filter_nat. cbn [length Nat.leb andb]. induction s as [|k s IH]; cbn [map sizes_match]; auto. now rewrite Z.eqb_refl, IH.
Qed.
Lemma match_one s1 k s2 : dims_match (map Z.of_nat s1 ++ (-1)%Z :: map Z.of_nat s2) (s1 ++ k :: s2) = true.
Proof.
  unfold dims_match. rewrite filter_app. cbn [filter]. rewrite !filter_nat. change (length ([] ++ (if m1 (-1) then [(-1)%Z] else [])) <=? 1) with true. cbn [andb].
  induction s1 as [|i s1 IH]; cbn [map app sizes_match]; [|now rewrite Z.eqb_refl, IH].
  rewrite Z.eqb_refl, orb_true_r. cbn [andb]. assert (H := match_nat s2). unfold dims_match in H. now apply andb_true_iff in H as [_ H].
Qed.

Section P.
  Context {A : Type}.
  Implicit Types t : tensor A.
  Lemma reshape_z_nat s t : reshape_z (map Z.of_nat s) t = reshape s t.
  Proof. unfold reshape_z. now rewrite low_nat, filter_nat, to_of. Qed.
  Lemma reshape_z_one s1 s2 t : reshape_z (map Z.of_nat s1 ++ (-1)%Z :: map Z.of_nat s2) t =
    let n := numel (s1 ++ s2) in
    if Nat.eqb n 0 then Raise RuntimeError
    else if Nat.eqb (numel (shape t) mod n) 0 then Ok (mkT (s1 ++ numel (shape t) / n :: s2) (data t)) else Raise RuntimeError.
  Proof.
    unfold reshape_z. rewrite existsb_app. cbn [existsb]. rewrite !low_nat. cbn [orb Z.ltb Z.compare Pos.compare Pos.compare_cont].
    rewrite !filter_app. cbn [filter]. rewrite !filter_nat, !filter_other. change (m1 (-1)) with true. cbn [negb app length].
    rewrite map_app, !to_of. cbv zeta. destruct (Nat.eqb (numel (s1 ++ s2)) 0); auto. destruct (Nat.eqb _ 0); auto.
    assert (E : forall q s, map (fun d => if m1 d then q else Z.to_nat d) (map Z.of_nat s) = s).
    { intros q s. rewrite map_map. rewrite <- map_id. apply map_ext. intros i. rewrite m1_nat. apply Nat2Z.id. }
    rewrite map_app. cbn [map]. rewrite !E. reflexivity.
  Qed.
  Lemma reshape_z_ok b s s' d t : 0 < b -> 0 < numel s -> shape t = b :: s -> dims_match d s' = true -> numel s' = numel s ->
    reshape_z (Z.of_nat b :: d) t = Ok (mkT (b :: s') (data t)).
  Proof.
    intros Hb Hs St M Ns. destruct (match_cases d s' M) as [-> | (s1 & k & s2 & -> & ->)].
    - change (Z.of_nat b :: map Z.of_nat s') with (map Z.of_nat (b :: s')). rewrite reshape_z_nat. apply reshape_ok. rewrite St, !numel_cons. congruence.
    - change (Z.of_nat b :: map Z.of_nat s1 ++ (-1)%Z :: map Z.of_nat s2) with (map Z.of_nat (b :: s1) ++ (-1)%Z :: map Z.of_nat s2).
      rewrite reshape_z_one. cbv zeta. rewrite St. rewrite numel_app, numel_cons in Ns. rewrite numel_app, !numel_cons.
      assert (E : b * numel s = k * (b * numel s1 * numel s2)) by nia. assert (P : b * numel s1 * numel s2 <> 0) by nia.
      apply Nat.eqb_neq in P as P'. rewrite P'. rewrite E, Nat.mod_mul, Nat.div_mul by auto. cbn [Nat.eqb app]. reflexivity.
  Qed.
  (** nothing else is accepted *)
  Lemma no_low_cases d : existsb (fun z => Z.ltb z (-1)) d = false -> length (filter m1 d) <= 1 -> exists s, dims_match d s = true.
  Proof.
    intros L C. exists (map Z.to_nat d). unfold dims_match. apply Nat.leb_le in C. rewrite C. cbn [andb]. clear C.
    induction d as [|z d IH]; cbn; auto. cbn in L. apply orb_false_iff in L as [L1 L2]. apply Z.ltb_ge in L1. rewrite IH by auto. rewrite andb_true_r.
    destruct (Z.eqb_spec z (-1)); [now rewrite orb_true_r|]. apply orb_true_iff. left. apply Z.eqb_eq. rewrite Z2Nat.id; lia.
  Qed.
  Lemma reshape_z_cases b d t : (exists s', dims_match d s' = true /\ numel (b :: s') = numel (shape t) /\ reshape_z (Z.of_nat b :: d) t = Ok (mkT (b :: s') (data t))) \/
    reshape_z (Z.of_nat b :: d) t = Raise RuntimeError.
  Proof.
    destruct (existsb (fun z => Z.ltb z (-1)) d) eqn:L.
    - right. unfold reshape_z. cbn [existsb]. rewrite L, orb_true_r. reflexivity.
    - destruct (le_lt_dec (length (filter m1 d)) 1) as [C|C].
      + destruct (no_low_cases d L C) as [s M]. destruct (match_cases d s M) as [-> | (s1 & k & s2 & -> & ->)].
        * change (Z.of_nat b :: map Z.of_nat s) with (map Z.of_nat (b :: s)). rewrite reshape_z_nat. unfold reshape.
          destruct (Nat.eqb_spec (numel (b :: s)) (numel (shape t))) as [E|E]; [left|now right]. exists s. auto using match_nat.
        * change (Z.of_nat b :: map Z.of_nat s1 ++ (-1)%Z :: map Z.of_nat s2) with (map Z.of_nat (b :: s1) ++ (-1)%Z :: map Z.of_nat s2).
          rewrite reshape_z_one. cbv zeta. set (n := numel ((b :: s1) ++ s2)). destruct (Nat.eqb_spec n 0) as [E|E]; [now right|].
          destruct (Nat.eqb_spec (numel (shape t) mod n) 0) as [E2|E2]; [left|now right].
          exists (s1 ++ numel (shape t) / n :: s2). split; [apply match_one|]. split; [|reflexivity].
          assert (D := Nat.div_mod (numel (shape t)) n E). rewrite numel_cons, numel_app, numel_cons. unfold n in D at 1. rewrite numel_app, numel_cons in D. nia.
      + right. unfold reshape_z. cbn [existsb filter]. rewrite L, m1_nat. destruct (Z.ltb (Z.of_nat b) (-1)); cbn [orb]; auto.
        destruct (length (filter m1 d)) as [|[|q]]; auto; lia.
  Qed.
  Lemma reshape_z_data d t u : reshape_z d t = Ok u -> data u = data t.
  Proof.
    unfold reshape_z. destruct (existsb _ d); [discriminate|]. destruct (length _) as [|[|q]]; [|cbv zeta|discriminate].
    - unfold reshape. destruct (Nat.eqb _ _); [|discriminate]. now intros [= <-].
    - destruct (Nat.eqb _ 0); [discriminate|]. destruct (Nat.eqb _ 0); [|discriminate]. now intros [= <-].
  Qed.
End P.
