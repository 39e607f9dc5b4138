(** More lemmas about tensor operations: same-shape arithmetic, flattening, diagonals. *)
From Coq Require Import String Ascii List Arith ZArith Lia Bool.
From Verif Require Import Scalar Sums Tensor TensorLemmas EinsumLemmas Abstract Spec.
Import ListNotations.
Local Open Scope nat_scope.
Local Open Scope list_scope.

Section Ops.
  Context {K} `{CR : CRing K}.
  Add Ring Kring : (cring : ring_theory n0 n1 nadd nmul nsub nopp (@eq K)).
  Notation gt := (get (@n0 K _)).
  Notation T := (tensor K).

  Lemma bshape_refl s : bshape s s = Some s.
  Proof. induction s as [|a s IH]; cbn; [reflexivity|]. now rewrite IH, Nat.eqb_refl. Qed.
  Lemma bidx_id s idx : valid s idx -> bidx s idx = idx.
  Proof.
    intros V. unfold bidx. rewrite (valid_len _ _ V), Nat.sub_diag. cbn [skipn].
    revert idx V. induction s as [|d s IH]; intros [|i idx] V; try (exfalso; exact V); [reflexivity|].
    apply valid_cons_inv in V as [Hi V]. cbn. rewrite IH by auto. f_equal.
    destruct (Nat.eqb_spec d 1); lia.
  Qed.
  Lemma bop_same f (a b : T) : shape a = shape b ->
    bop f a b = Ok (tab (shape a) (fun idx => f (gt a idx) (gt b idx))).
  Proof.
    intros S. unfold bop. rewrite <- S, bshape_refl, rev_involutive. f_equal.
    apply tab_ext. intros idx V. now rewrite bidx_id.
  Qed.
  Lemma tadd_inplace_same (a b : T) : shape a = shape b ->
    tadd_ a b = Ok (tab (shape a) (fun idx => nadd (gt a idx) (gt b idx))).
  Proof.
    intros S. unfold tadd_, tadd. rewrite bop_same by auto. cbn [bind].
    now rewrite shape_tab, shape_eqb_refl.
  Qed.

  (** flat access *)
  Lemma get_flat2 (t : T) b n q i : shape t = [b; n] -> gt t [q; i] = nth (q * n + i) (data t) n0.
  Proof.
    intros S. unfold get. rewrite S. cbn [ravel]. rewrite !numel_cons, numel_nil. f_equal. lia.
  Qed.
  Lemma flat_lt b n q i : q < b -> i < n -> q * n + i < b * n.
  Proof. nia. Qed.
  Lemma divmod_flat n q i : i < n -> (q * n + i) / n = q /\ (q * n + i) mod n = i.
  Proof.
    intros Hi. rewrite Nat.add_comm, Nat.div_add, Nat.mod_add, Nat.div_small, Nat.mod_small; lia.
  Qed.
  Lemma flat_ok (t : T) b s : b <> 0 -> shape t = b :: s -> flat b t = Ok (mkT [b; numel s] (data t)).
  Proof.
    intros Hb S. unfold flat.
    rewrite reshape_m1_eq with (n := numel s) by (rewrite ?S, ?numel_cons, ?numel_nil; lia).
    apply reshape_ok. rewrite S. cbn [app]. rewrite !numel_cons, numel_nil. lia.
  Qed.
  Lemma get_mkT2 b n (d : list K) q i : gt (mkT [b; n] d) [q; i] = nth (q * n + i) d n0.
  Proof. now rewrite get_flat2 with (b := b) (n := n). Qed.
  Lemma nth_map_ok {A B} (f : A -> B) l k d d' : k < length l -> nth k (map f l) d' = f (nth k l d).
  Proof. intros Hk. rewrite nth_indep with (d' := f d) by now rewrite map_length. apply map_nth. Qed.
  Lemma wf_emap f (t : T) : wf t -> wf (emap f t).
  Proof. unfold wf, emap; cbn. now rewrite map_length. Qed.
  Lemma nth_emap f (t : T) k : k < length (data t) -> nth k (data (emap f t)) n0 = f (nth k (data t) n0).
  Proof. intros Hk. unfold emap; cbn. now apply nth_map_ok. Qed.
  Lemma get_emap f (t : T) idx : wf t -> valid (shape t) idx -> gt (emap f t) idx = f (gt t idx).
  Proof.
    intros W V. unfold get. rewrite nth_emap; [reflexivity|].
    change (shape (emap f t)) with (shape t). rewrite W. now apply ravel_lt.
  Qed.
  Lemma nth_ones s k : k < numel s -> nth k (data (@ones K _ s)) n0 = n1.
  Proof. intros. unfold ones, fill_with. now rewrite flat_tab. Qed.

  Lemma diag_embed2 (t : T) b n : shape t = [b; n] ->
    diag_embed t = Ok (tab3 b n n (fun q i j => if Nat.eqb i j then gt t [q; i] else n0)).
  Proof.
    intros S. unfold diag_embed. rewrite S. reflexivity.
  Qed.
  Lemma diagonal12_ok (t : T) b n : shape t = [b; n; n] ->
    diagonal12 t = Ok (tab2 b n (fun q i => gt t [q; i; i])).
  Proof. intros S. unfold diagonal12. rewrite S, Nat.min_id. reflexivity. Qed.
  Lemma get_eye b n q i j : q < b -> i < n -> j < n -> gt (eye_repeat b n) [q; i; j] = delta i j.
  Proof. intros. unfold eye_repeat. now rewrite get_tab3. Qed.

  (** contraction identities *)
  Lemma vJ_ext b m n J J' (v v' : T) :
    (forall q i j, q < b -> i < m -> j < n -> J q i j = J' q i j) ->
    (forall q i, q < b -> i < m -> gt v [q; i] = gt v' [q; i]) -> vJ b m n J v = vJ b m n J' v'.
  Proof.
    intros E E'. apply tab2_ext. intros q j Hq Hj. apply bsum_ext. intros i Hi.
    now rewrite E, E' by auto.
  Qed.
  Lemma vJ_vJ b m k n J1 J2 (v : T) :
    vJ b k n J2 (vJ b m k J1 v) = vJ b m n (fun q i j => bsum k (fun a => nmul (J1 q i a) (J2 q a j))) v.
  Proof.
    apply tab2_ext. intros q j Hq Hj.
    rewrite (bsum_ext k _ (fun a => bsum m (fun i => nmul (nmul (gt v [q; i]) (J1 q i a)) (J2 q a j)))).
    2:{ intros a Ha. unfold vJ. rewrite get_tab2 by auto. now rewrite bsum_mul_r. }
    rewrite bsum_swap. apply bsum_ext. intros i Hi. rewrite <- bsum_mul_l. apply bsum_ext. intros. ring.
  Qed.
  Lemma MJ_MJ b r m k n J1 J2 (M : T) :
    MJ b r k n J2 (MJ b r m k J1 M) = MJ b r m n (fun q i j => bsum k (fun a => nmul (J1 q i a) (J2 q a j))) M.
  Proof.
    apply tab3_ext. intros q c j Hq Hc Hj.
    rewrite (bsum_ext k _ (fun a => bsum m (fun i => nmul (nmul (gt M [q; c; i]) (J1 q i a)) (J2 q a j)))).
    2:{ intros a Ha. unfold MJ. rewrite get_tab3 by auto. now rewrite bsum_mul_r. }
    rewrite bsum_swap. apply bsum_ext. intros i Hi. rewrite <- bsum_mul_l. apply bsum_ext. intros. ring.
  Qed.
  Lemma Jv_Jv b m k n J1 J2 (v : T) :
    Jv b m k J1 (Jv b k n J2 v) = Jv b m n (fun q i j => bsum k (fun a => nmul (J1 q i a) (J2 q a j))) v.
  Proof.
    apply tab2_ext. intros q i Hq Hi.
    rewrite (bsum_ext k _ (fun a => bsum n (fun j => nmul (nmul (J1 q i a) (J2 q a j)) (gt v [q; j])))).
    2:{ intros a Ha. unfold Jv. rewrite get_tab2 by auto. rewrite <- bsum_mul_l. apply bsum_ext. intros. ring. }
    rewrite bsum_swap. apply bsum_ext. intros j Hj. now rewrite bsum_mul_r.
  Qed.
  Lemma JM_JM b m k n c J1 J2 (M : T) :
    JM b m k c J1 (JM b k n c J2 M) = JM b m n c (fun q i j => bsum k (fun a => nmul (J1 q i a) (J2 q a j))) M.
  Proof.
    apply tab3_ext. intros q i z Hq Hi Hz.
    rewrite (bsum_ext k _ (fun a => bsum n (fun j => nmul (nmul (J1 q i a) (J2 q a j)) (gt M [q; j; z])))).
    2:{ intros a Ha. unfold JM. rewrite get_tab3 by auto. rewrite <- bsum_mul_l. apply bsum_ext. intros. ring. }
    rewrite bsum_swap. apply bsum_ext. intros j Hj. now rewrite bsum_mul_r.
  Qed.

  (** metrics *)
  Lemma metric_diag_sum m (M : T) q (f : nat -> nat -> K) :
    bsum m (fun i => bsum m (fun k => nmul (f i k) (metric true M q i k))) =
    bsum m (fun i => nmul (f i i) (gt M [q; i])).
  Proof.
    apply bsum_ext. intros i Hi. rewrite (bsum_single m i); auto.
    - unfold metric. now rewrite Nat.eqb_refl.
    - intros k Hk N. unfold metric. destruct (Nat.eqb_spec i k); [congruence|ring].
  Qed.
  Lemma pull_at_diag m J (M : T) q j l :
    pull_at m J (metric true M) q j l = bsum m (fun i => nmul (nmul (J q i j) (gt M [q; i])) (J q i l)).
  Proof.
    unfold pull_at.
    transitivity (bsum m (fun i => nmul (nmul (J q i j) (J q i l)) (gt M [q; i]))).
    2:{ apply bsum_ext; intros; ring. }
    rewrite <- metric_diag_sum with (f := fun i k => nmul (J q i j) (J q k l)).
    apply bsum_ext; intros; apply bsum_ext; intros; ring.
  Qed.
  Lemma push_at_diag n J (M : T) q i k :
    push_at n J (metric true M) q i k = bsum n (fun j => nmul (nmul (J q i j) (gt M [q; j])) (J q k j)).
  Proof.
    unfold push_at.
    transitivity (bsum n (fun j => nmul (nmul (J q i j) (J q k j)) (gt M [q; j]))).
    2:{ apply bsum_ext; intros; ring. }
    rewrite <- metric_diag_sum with (f := fun j l => nmul (J q i j) (J q k l)).
    apply bsum_ext; intros; apply bsum_ext; intros; ring.
  Qed.
  Lemma pull_at_ext m J J' M M' q j l :
    (forall i, i < m -> J q i j = J' q i j) -> (forall i, i < m -> J q i l = J' q i l) ->
    (forall i k, i < m -> k < m -> M q i k = M' q i k) ->
    pull_at m J M q j l = pull_at m J' M' q j l.
  Proof.
    intros E1 E2 E3. apply bsum_ext; intros i Hi; apply bsum_ext; intros k Hk.
    now rewrite E1, E2, E3 by auto.
  Qed.
  Lemma push_at_ext n J J' M M' q i k :
    (forall j, j < n -> J q i j = J' q i j) -> (forall j, j < n -> J q k j = J' q k j) ->
    (forall j l, j < n -> l < n -> M q j l = M' q j l) ->
    push_at n J M q i k = push_at n J' M' q i k.
  Proof.
    intros E1 E2 E3. apply bsum_ext; intros j Hj; apply bsum_ext; intros l Hl.
    now rewrite E1, E2, E3 by auto.
  Qed.
  Lemma present_ext td b n R R' :
    (forall q j l, q < b -> j < n -> l < n -> R q j l = R' q j l) -> present td b n R = present td b n R' :> T.
  Proof.
    intros E. unfold present. destruct td; [apply tab2_ext|apply tab3_ext]; intros; apply E; auto.
  Qed.
  (** pulling back twice *)
  Lemma pull_at_comp m k J1 J2 M q j l :
    pull_at k J2 (pull_at m J1 M) q j l =
    pull_at m (fun q i j => bsum k (fun a => nmul (J1 q i a) (J2 q a j))) M q j l.
  Proof.
    unfold pull_at.
    transitivity (bsum k (fun a => bsum k (fun c => bsum m (fun i => bsum m (fun e =>
       nmul (nmul (nmul (J1 q i a) (J2 q a j)) (M q i e)) (nmul (J1 q e c) (J2 q c l))))))).
    { apply bsum_ext; intros a _; apply bsum_ext; intros c _.
      rewrite <- bsum_mul_l, <- bsum_mul_r. apply bsum_ext; intros i _.
      rewrite <- bsum_mul_l, <- bsum_mul_r. apply bsum_ext; intros e _. ring. }
    transitivity (bsum m (fun i => bsum m (fun e => bsum k (fun a => bsum k (fun c =>
       nmul (nmul (nmul (J1 q i a) (J2 q a j)) (M q i e)) (nmul (J1 q e c) (J2 q c l))))))).
    { erewrite bsum_ext; [|intros a _; apply bsum_swap].
      rewrite bsum_swap. apply bsum_ext; intros i _.
      erewrite bsum_ext; [|intros a _; apply bsum_swap].
      rewrite bsum_swap. reflexivity. }
    apply bsum_ext; intros i _; apply bsum_ext; intros e _.
    rewrite <- bsum_mul_r, <- bsum_mul_r. apply bsum_ext; intros a _.
    rewrite <- bsum_mul_l. apply bsum_ext; intros c _. ring.
  Qed.
  Lemma push_at_comp n k J1 J2 M q i l :
    push_at k J1 (push_at n J2 M) q i l =
    push_at n (fun q i j => bsum k (fun a => nmul (J1 q i a) (J2 q a j))) M q i l.
  Proof.
    unfold push_at.
    transitivity (bsum k (fun a => bsum k (fun c => bsum n (fun j => bsum n (fun e =>
       nmul (nmul (nmul (J1 q i a) (J2 q a j)) (M q j e)) (nmul (J1 q l c) (J2 q c e))))))).
    { apply bsum_ext; intros a _; apply bsum_ext; intros c _.
      rewrite <- bsum_mul_l, <- bsum_mul_r. apply bsum_ext; intros j _.
      rewrite <- bsum_mul_l, <- bsum_mul_r. apply bsum_ext; intros e _. ring. }
    transitivity (bsum n (fun j => bsum n (fun e => bsum k (fun a => bsum k (fun c =>
       nmul (nmul (nmul (J1 q i a) (J2 q a j)) (M q j e)) (nmul (J1 q l c) (J2 q c e))))))).
    { erewrite bsum_ext; [|intros a _; apply bsum_swap].
      rewrite bsum_swap. apply bsum_ext; intros j _.
      erewrite bsum_ext; [|intros a _; apply bsum_swap].
      rewrite bsum_swap. reflexivity. }
    apply bsum_ext; intros j _; apply bsum_ext; intros e _.
    rewrite <- bsum_mul_r, <- bsum_mul_r. apply bsum_ext; intros a _.
    rewrite <- bsum_mul_l. apply bsum_ext; intros c _. ring.
  Qed.
  Definition Jeq (b m n : nat) (J J' : nat -> nat -> nat -> K) : Prop :=
    forall q i j, q < b -> i < m -> j < n -> J q i j = J' q i j.
  Lemma dense_ext b m n J J' : Jeq b m n J J' -> dense b m n J = dense b m n J'.
  Proof. intros E. now apply tab3_ext. Qed.
  Lemma vJ_Jext b m n J J' (v : T) : Jeq b m n J J' -> vJ b m n J v = vJ b m n J' v.
  Proof. intros E. now apply vJ_ext. Qed.
  Lemma MJ_Jext b r m n J J' (M : T) : Jeq b m n J J' -> MJ b r m n J M = MJ b r m n J' M.
  Proof. intros E. apply tab3_ext; intros. apply bsum_ext; intros. now rewrite E. Qed.
  Lemma Jv_Jext b m n J J' (v : T) : Jeq b m n J J' -> Jv b m n J v = Jv b m n J' v.
  Proof. intros E. apply tab2_ext; intros. apply bsum_ext; intros. now rewrite E. Qed.
  Lemma JM_Jext b m n c J J' (M : T) : Jeq b m n J J' -> JM b m n c J M = JM b m n c J' M.
  Proof. intros E. apply tab3_ext; intros. apply bsum_ext; intros. now rewrite E. Qed.
  Lemma pull_Jext b m n J J' fd td (M : T) : Jeq b m n J J' -> pull b m n J fd td M = pull b m n J' fd td M.
  Proof. intros E. apply present_ext; intros. apply pull_at_ext; intros; auto. Qed.
  Lemma push_Jext b m n J J' fd td (M : T) : Jeq b m n J J' -> push b m n J fd td M = push b m n J' fd td M.
  Proof. intros E. apply present_ext; intros. apply push_at_ext; intros; auto. Qed.

  (** products with the identity *)
  Lemma vJ_delta b n (v : T) : wf v -> shape v = [b; n] -> vJ b n n (fun _ i j => delta i j) v = v.
  Proof.
    intros W S. symmetry. apply (tab2_eq n0); auto. intros q j Hq Hj. now rewrite bsum_delta_r.
  Qed.
  Lemma MJ_delta b r n (M : T) : wf M -> shape M = [b; r; n] -> MJ b r n n (fun _ i j => delta i j) M = M.
  Proof.
    intros W S. symmetry. apply (tab3_eq n0); auto. intros q a j Hq Ha Hj. now rewrite bsum_delta_r.
  Qed.
  Lemma Jv_delta b n (v : T) : wf v -> shape v = [b; n] -> Jv b n n (fun _ i j => delta i j) v = v.
  Proof.
    intros W S. symmetry. apply (tab2_eq n0); auto. intros q j Hq Hj. now rewrite bsum_delta_l.
  Qed.
  Lemma JM_delta b n c (M : T) : wf M -> shape M = [b; n; c] -> JM b n n c (fun _ i j => delta i j) M = M.
  Proof.
    intros W S. symmetry. apply (tab3_eq n0); auto. intros q i a Hq Hi Ha. now rewrite bsum_delta_l.
  Qed.
  Lemma pull_at_delta n M q j l : j < n -> l < n -> pull_at n (fun _ i j => delta i j) M q j l = M q j l.
  Proof.
    intros Hj Hl. unfold pull_at.
    rewrite (bsum_ext n _ (fun i => nmul (M q i l) (delta i j))).
    - now rewrite bsum_delta_r.
    - intros i Hi. rewrite bsum_delta_r by auto. ring.
  Qed.
  Lemma push_at_delta n M q j l : j < n -> l < n -> push_at n (fun _ i j => delta i j) M q j l = M q j l.
  Proof.
    intros Hj Hl. unfold push_at.
    rewrite (bsum_ext n _ (fun i => nmul (delta j i) (M q i l))).
    - now rewrite bsum_delta_l.
    - intros i Hi. rewrite (bsum_ext n _ (fun k => nmul (delta l k) (nmul (delta j i) (M q i k)))) by (intros; ring).
      now rewrite bsum_delta_l by auto.
  Qed.
  Lemma wf_vJ b m n J (v : T) : wf (vJ b m n J v). Proof. apply wf_tab. Qed.
  Lemma wf_MJ b r m n J (M : T) : wf (MJ b r m n J M). Proof. apply wf_tab. Qed.
  Lemma wf_Jv b m n J (v : T) : wf (Jv b m n J v). Proof. apply wf_tab. Qed.
  Lemma wf_JM b m n c J (M : T) : wf (JM b m n c J M). Proof. apply wf_tab. Qed.
  Lemma wf_present td b n R : wf (@present K td b n R). Proof. destruct td; apply wf_tab. Qed.

  (** reading back a presented metric *)
  Lemma metric_present td b n R q i k :
    q < b -> i < n -> k < n -> td = false -> metric td (present td b n R) q i k = R q i k.
  Proof. intros ? ? ? ->. unfold metric, present. now rewrite get_tab3. Qed.
  Lemma shape_present td b n R : shape (@present K td b n R) = metric_shape td b n.
  Proof. now destruct td. Qed.
End Ops.
