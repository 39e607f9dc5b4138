(** Adjointness, linearity, symmetry and positivity of the products, from the fact that they multiply by the matrix
    that jacobian returns. *)
From Coq Require Import String Ascii List Arith ZArith Lia Bool Reals Lra.
From Verif Require Import Scalar Sums Tensor TensorLemmas EinsumLemmas Conv Abstract Simple LinearLayer ConvLayer PoolLayer
  Module Spec OpLemmas ReshapeLemmas Jac LeafSpec LeafSimple TreeBase TreeVjp TreeMjp TreePull TreeJvp TreeJmp TreePush Leaves Trees SpecQ.
Import ListNotations.
Local Open Scope nat_scope.
Local Open Scope list_scope.

Section Algebra.
  Context {K} `{CR : CRing K}.
  Add Ring Kring : (cring : ring_theory n0 n1 nadd nmul nsub nopp (@eq K)).
  Notation gt := (get (@n0 K _)).
  Notation T := (tensor K).

  (** *** adjointness *)
  Lemma vJ_Jv b m n J (u v : T) q : q < b ->
    bsum m (fun i => nmul (gt u [q; i]) (gt (Jv b m n J v) [q; i])) = bsum n (fun j => nmul (gt (vJ b m n J u) [q; j]) (gt v [q; j])).
  Proof.
    intros Hq. rewrite (bsum_ext _ _ (fun i => bsum n (fun j => nmul (nmul (gt u [q; i]) (J q i j)) (gt v [q; j])))).
    2:{ intros i Hi. unfold Jv. rewrite get_tab2 by auto. rewrite <- bsum_mul_l. apply bsum_ext. intros. ring. }
    rewrite bsum_swap. apply bsum_ext. intros j Hj. unfold vJ. rewrite get_tab2 by auto. now rewrite bsum_mul_r.
  Qed.
  Lemma MJ_JM b r m n c J (A B : T) q i k : q < b -> i < r -> k < c ->
    bsum m (fun l => nmul (gt A [q; i; l]) (gt (JM b m n c J B) [q; l; k])) = bsum n (fun l => nmul (gt (MJ b r m n J A) [q; i; l]) (gt B [q; l; k])).
  Proof.
    intros Hq Hi Hk. rewrite (bsum_ext _ _ (fun l => bsum n (fun j => nmul (nmul (gt A [q; i; l]) (J q l j)) (gt B [q; j; k])))).
    2:{ intros l Hl. unfold JM. rewrite get_tab3 by auto. rewrite <- bsum_mul_l. apply bsum_ext. intros. ring. }
    rewrite bsum_swap. apply bsum_ext. intros j Hj. unfold MJ. rewrite get_tab3 by auto. now rewrite bsum_mul_r.
  Qed.

  (** *** linear combinations *)
  Section Lin.
    Variables (a c : K).
    Lemma wf_lin u v : wf (lin a c u v : T). Proof. apply wf_tab. Qed.
    Lemma shape_lin u v : shape (lin a c u v : T) = shape u. Proof. reflexivity. Qed.
    Lemma get_lin (u v : T) idx : valid (shape u) idx -> gt (lin a c u v) idx = nadd (nmul a (gt u idx)) (nmul c (gt v idx)).
    Proof. intros V. unfold lin. now rewrite get_tab. Qed.
    Lemma lin_tab s f g : lin a c (tab s f) (tab s g : T) = tab s (fun idx => nadd (nmul a (f idx)) (nmul c (g idx))).
    Proof. unfold lin. rewrite shape_tab. apply tab_ext. intros idx V. now rewrite !get_tab. Qed.
    Lemma bsum_lin n f g : bsum n (fun i => nadd (nmul a (f i)) (nmul c (g i))) = nadd (nmul a (bsum n f)) (nmul c (bsum n g)).
    Proof. now rewrite bsum_add, !bsum_mul_l. Qed.
    Lemma v2 b n q i : q < b -> i < n -> valid [b; n] [q; i]. Proof. intros. cbn. auto. Qed.
    Lemma v3 b n m q i j : q < b -> i < n -> j < m -> valid [b; n; m] [q; i; j]. Proof. intros. cbn. auto. Qed.

    Lemma vJ_lin b m n J (u v : T) : shape u = [b; m] -> vJ b m n J (lin a c u v) = lin a c (vJ b m n J u) (vJ b m n J v).
    Proof.
      intros S. symmetry. unfold vJ, tab2. rewrite lin_tab. apply tab_ext. intros idx V. didx idx V. rewrite <- bsum_lin. apply bsum_ext. intros k Hk.
      rewrite get_lin by (rewrite S; now apply v2). ring.
    Qed.
    Lemma Jv_lin b m n J (u v : T) : shape u = [b; n] -> Jv b m n J (lin a c u v) = lin a c (Jv b m n J u) (Jv b m n J v).
    Proof.
      intros S. symmetry. unfold Jv, tab2. rewrite lin_tab. apply tab_ext. intros idx V. didx idx V. rewrite <- bsum_lin. apply bsum_ext. intros k Hk.
      rewrite get_lin by (rewrite S; now apply v2). ring.
    Qed.
    Lemma MJ_lin b r m n J (u v : T) : shape u = [b; r; m] -> MJ b r m n J (lin a c u v) = lin a c (MJ b r m n J u) (MJ b r m n J v).
    Proof.
      intros S. symmetry. unfold MJ, tab3. rewrite lin_tab. apply tab_ext. intros idx V. didx idx V. rewrite <- bsum_lin. apply bsum_ext. intros k Hk.
      rewrite get_lin by (rewrite S; now apply v3). ring.
    Qed.
    Lemma JM_lin b m n r J (u v : T) : shape u = [b; n; r] -> JM b m n r J (lin a c u v) = lin a c (JM b m n r J u) (JM b m n r J v).
    Proof.
      intros S. symmetry. unfold JM, tab3. rewrite lin_tab. apply tab_ext. intros idx V. didx idx V. rewrite <- bsum_lin. apply bsum_ext. intros k Hk.
      rewrite get_lin by (rewrite S; now apply v3). ring.
    Qed.
    Definition flin (R R' : nat -> nat -> nat -> K) q i k := nadd (nmul a (R q i k)) (nmul c (R' q i k)).
    Lemma metric_lin fd b n (u v : T) q i k : shape u = metric_shape fd b n -> q < b -> i < n -> k < n ->
      metric fd (lin a c u v) q i k = flin (metric fd u) (metric fd v) q i k.
    Proof.
      intros S Hq Hi Hk. unfold metric, flin. destruct fd; cbn [metric_shape] in S.
      - rewrite get_lin by (rewrite S; now apply v2). destruct Nat.eqb; auto. ring.
      - now rewrite get_lin by (rewrite S; now apply v3).
    Qed.
    Lemma pull_at_lin m J R R' q j l : pull_at m J (flin R R') q j l = flin (pull_at m J R) (pull_at m J R') q j l.
    Proof.
      unfold pull_at, flin. rewrite <- bsum_lin. apply bsum_ext. intros. rewrite <- bsum_lin. apply bsum_ext. intros. ring.
    Qed.
    Lemma push_at_lin m J R R' q j l : push_at m J (flin R R') q j l = flin (push_at m J R) (push_at m J R') q j l.
    Proof.
      unfold push_at, flin. rewrite <- bsum_lin. apply bsum_ext. intros. rewrite <- bsum_lin. apply bsum_ext. intros. ring.
    Qed.
    Lemma present_lin td b n R R' : present td b n (flin R R') = lin a c (present td b n R) (present td b n R' : T).
    Proof. unfold present, tab2, tab3. destruct td; rewrite lin_tab; apply tab_ext; intros idx V; didx idx V; reflexivity. Qed.
    Lemma vlin_VL l l' : vlin a c (VL l) (VL l') = VL (map (fun p => vlin a c (fst p) (snd p)) (combine l l')).
    Proof. cbn. f_equal. revert l'. induction l as [|x l IH]; intros [|x' l']; auto. cbn. now rewrite IH. Qed.
    Lemma wval_lin td b R R' : forall (m : module K) off, wval td b (flin R R') m off = vlin a c (wval td b R m off) (wval td b R' m off).
    Proof.
      refine (module_ind2 (fun m => forall off, wval td b (flin R R') m off = vlin a c (wval td b R m off) (wval td b R' m off))
        (fun ms => forall off, wvals (wval td b (flin R R')) ms off = map (fun p => vlin a c (fst p) (snd p)) (combine (wvals (wval td b R) ms off) (wvals (wval td b R') ms off))) _ _ _ _ _ _).
      - intros l off. cbn [wval]. destruct Nat.eqb; [reflexivity|]. cbn [vlin]. f_equal. unfold block. rewrite <- present_lin. reflexivity.
      - reflexivity.
      - intros h ms IH off. cbn [wval]. destruct Nat.eqb; [reflexivity|]. destruct td.
        + cbn [vlin]. f_equal. unfold block. rewrite <- present_lin. reflexivity.
        + rewrite vlin_VL. f_equal. apply IH.
      - intros F IH off. cbn [wval]. apply IH.
      - reflexivity.
      - intros m ms IHm IHs off. cbn [wvals]. rewrite IHm, IHs.
        pose proof (wval_none td b R m off) as N. pose proof (wval_none td b R' m off) as N'.
        assert (Sh : match wval td b R m off, wval td b R' m off with VNone, VNone | VT _, VT _ | VL _, VL _ => True | _, _ => False end).
        { clear IHm IHs N N'. revert off. generalize m. clear m.
          refine (module_ind2 (fun m => forall off, match wval td b R m off, wval td b R' m off with VNone, VNone | VT _, VT _ | VL _, VL _ => True | _, _ => False end) (fun _ => True) _ _ _ _ I (fun _ _ _ _ => I)).
          - intros l off. cbn. destruct Nat.eqb; auto.
          - intros; exact I.
          - intros h l _ off. cbn [wval]. destruct Nat.eqb; auto. destruct td; auto.
          - intros F IH off. cbn [wval]. apply IH. }
        destruct (wval td b R m off), (wval td b R' m off); try contradiction; [reflexivity|reflexivity|].
        rewrite vlin_VL. cbn [combine map fst snd]. now rewrite vlin_VL.
    Qed.
  End Lin.

  (** *** quadratic forms *)
  Lemma quad_ext n R R' q v : (forall i k, i < n -> k < n -> R q i k = R' q i k) -> quad n R q v = quad n R' q v :> K.
  Proof. intros E. apply bsum_ext. intros i Hi. apply bsum_ext. intros k Hk. now rewrite E. Qed.
  Lemma quad_pull n m J M q v : quad n (pull_at m J M) q v = quad m M q (fun i => bsum n (fun j => nmul (J q i j) (v j))).
  Proof.
    unfold quad, pull_at.
    transitivity (bsum n (fun j => bsum n (fun l => bsum m (fun i => bsum m (fun k => nmul (nmul (nmul (J q i j) (v j)) (M q i k)) (nmul (J q k l) (v l))))))).
    { apply bsum_ext. intros j Hj. apply bsum_ext. intros l Hl. rewrite <- bsum_mul_l, <- bsum_mul_r. apply bsum_ext. intros i Hi.
      rewrite <- bsum_mul_l, <- bsum_mul_r. apply bsum_ext. intros k Hk. ring. }
    transitivity (bsum m (fun i => bsum m (fun k => bsum n (fun j => bsum n (fun l => nmul (nmul (nmul (J q i j) (v j)) (M q i k)) (nmul (J q k l) (v l))))))).
    { rewrite (bsum_ext n _ (fun j => bsum m (fun i => bsum m (fun k => bsum n (fun l => nmul (nmul (nmul (J q i j) (v j)) (M q i k)) (nmul (J q k l) (v l))))))).
      - rewrite bsum_swap. apply bsum_ext. intros i Hi. now rewrite bsum_swap.
      - intros j Hj. rewrite bsum_swap. apply bsum_ext. intros i Hi. now rewrite bsum_swap. }
    apply bsum_ext. intros i Hi. apply bsum_ext. intros k Hk. rewrite <- !bsum_mul_r. apply bsum_ext. intros j Hj. rewrite <- bsum_mul_l. apply bsum_ext. intros. ring.
  Qed.
  Lemma push_pull n J M q i k : push_at n J M q i k = pull_at n (fun q j i => J q i j) M q i k.
  Proof. apply bsum_ext. intros. apply bsum_ext. intros. ring. Qed.
  Lemma quad_delta n R q j : j < n -> quad n R q (fun i => delta j i) = R q j j :> K.
  Proof.
    intros Hj. unfold quad. rewrite (bsum_ext _ _ (fun i => nmul (delta j i) (bsum n (fun k => nmul (R q i k) (delta k j))))).
    - rewrite bsum_delta_l by auto. now rewrite bsum_delta_r.
    - intros i Hi. rewrite <- bsum_mul_l. apply bsum_ext. intros k Hk. rewrite (delta_sym j k). ring.
  Qed.
  Lemma bsum_window N off n (f : nat -> K) : off + n <= N ->
    bsum N (fun i => if (off <=? i) && (i <? off + n) then f (i - off) else n0) = bsum n f.
  Proof.
    intros L. rewrite (bsum_split N off) by lia. rewrite bsum_0.
    2:{ intros i Hi. replace (off <=? i) with false by (symmetry; apply Nat.leb_gt; lia). reflexivity. }
    rewrite (bsum_split (N - off) n) by lia. rewrite (bsum_0 (N - off - n)).
    2:{ intros i Hi. replace (off + (n + i) <? off + n) with false by (symmetry; apply Nat.ltb_ge; lia). now rewrite andb_false_r. }
    rewrite (bsum_ext n _ f); [ring|]. intros i Hi. replace (off <=? off + i) with true by (symmetry; apply Nat.leb_le; lia).
    replace (off + i <? off + n) with true by (symmetry; apply Nat.ltb_lt; lia). cbn. f_equal. lia.
  Qed.
  Lemma quad_window N off n R q v : off + n <= N ->
    quad n (fun q i k => R q (off + i) (off + k)) q v = quad N R q (fun i => if (off <=? i) && (i <? off + n) then v (i - off) else n0).
  Proof.
    intros L. unfold quad. symmetry.
    rewrite (bsum_ext N _ (fun i => if (off <=? i) && (i <? off + n) then bsum n (fun k => nmul (nmul (v (i - off)) (R q (off + (i - off)) (off + k))) (v k)) else n0)).
    - apply (bsum_window N off n (fun i => bsum n (fun k => nmul (nmul (v i) (R q (off + i) (off + k))) (v k)))); auto.
    - intros i Hi. destruct ((off <=? i) && (i <? off + n)) eqn:E.
      + apply andb_prop in E. destruct E as [E1 E2]. apply Nat.leb_le in E1. apply Nat.ltb_lt in E2. replace (off + (i - off)) with i by lia.
        rewrite <- (bsum_window N off n (fun k => nmul (nmul (v (i - off)) (R q i (off + k))) (v k))) by auto. apply bsum_ext. intros k Hk.
        destruct ((off <=? k) && (k <? off + n)) eqn:E; [|ring]. apply andb_prop in E. destruct E as [E3 E4]. apply Nat.leb_le in E3.
        now replace (off + (k - off)) with k by lia.
      + apply bsum_0. intros. ring.
  Qed.
  (** a metric restricted to classes is the sum over the classes *)
  Lemma quad_classes n (la : nat -> nat) R q v : (forall p, p < n -> la p < n) ->
    quad n (same_layer la R) q v = bsum n (fun c => quad n R q (fun p => nmul (delta (la p) c) (v p))).
  Proof.
    intros L. unfold quad. symmetry. rewrite bsum_swap. apply bsum_ext. intros i Hi.
    rewrite (bsum_ext n _ (fun c => bsum n (fun k => nmul (delta (la i) c) (nmul (nmul (nmul (v i) (R q i k)) (v k)) (delta (la k) c))))).
    2:{ intros c Hc. apply bsum_ext. intros. ring. }
    rewrite bsum_swap. apply bsum_ext. intros k Hk. rewrite bsum_delta_l by auto. unfold same_layer.
    destruct (Nat.eqb_spec (la i) (la k)) as [->|Ne]; [rewrite delta_refl; ring|]. rewrite delta_neq by auto. ring.
  Qed.
  Lemma sym_pull n m J M q : sym_at m M q -> sym_at n (pull_at m J M) q.
  Proof.
    intros S i k Hi Hk. unfold pull_at. rewrite bsum_swap. apply bsum_ext. intros a Ha. apply bsum_ext. intros c Hc. rewrite (S c a) by auto. ring.
  Qed.

  (** *** the products *)
  Section Net.
    Variables (m : module K) (s s' : list nat) (b : nat) (x : T).
    Hypotheses (Ty : typed m s s') (Hb : 0 < b) (Wx : wf x) (Sx : shape x = b :: s).
    Variables h h' h'' : st K.

    Lemma adjoint_input u v : fwdable m -> wf u -> shape u = [b; numel s'] -> wf v -> shape v = [b; numel s] ->
      exists uJ Jv, snd (vjp m h x None u Input) = Ok (Some uJ) /\ snd (jvp m h' x None v Input) = Ok (Some Jv) /\
        forall q, q < b -> bsum (numel s') (fun i => nmul (gt u [q; i]) (gt Jv [q; i])) = bsum (numel s) (fun j => nmul (gt uJ [q; j]) (gt v [q; j])).
    Proof.
      intros Fb Wu Su Wv Sv. destruct (vjp_input m s s' b x Ty Hb Wx Sx h h u Wu Su) as (J & E1 & _ & _ & E2).
      destruct (jvp_input m s s' b x Ty Hb Wx Sx h h' None v Fb (or_introl eq_refl) Wv Sv) as (J' & E1' & _ & _ & E2').
      assert (J' = J) by congruence. subst J'. do 2 eexists. split; [exact E2|]. split; [exact E2'|]. intros. now apply vJ_Jv.
    Qed.
    Lemma adjoint_weight u v : fwdable m -> skips_param m -> n_params m <> 0 -> wf u -> shape u = [b; numel s'] -> wf v -> shape v = [b; n_params m] ->
      exists uJ Jv, snd (vjp m h x None u Weight) = Ok (Some uJ) /\ snd (jvp m h' x None v Weight) = Ok (Some Jv) /\
        forall q, q < b -> bsum (numel s') (fun i => nmul (gt u [q; i]) (gt Jv [q; i])) = bsum (n_params m) (fun j => nmul (gt uJ [q; j]) (gt v [q; j])).
    Proof.
      intros Fb Sp D Wu Su Wv Sv. destruct (vjp_weight m s s' b x Ty Hb Wx Sx h h u Wu Su) as [E _]. destruct (E D) as (J & E1 & _ & _ & E2).
      destruct (jvp_weight m s s' b x Ty Hb Wx Sx h h' None v Fb Sp (or_introl eq_refl) Wv Sv) as [E' _]. destruct (E' D) as (J' & E1' & _ & _ & E2').
      assert (J' = J) by congruence. subst J'. do 2 eexists. split; [exact E2|]. split; [exact E2'|]. intros. now apply vJ_Jv.
    Qed.
    Lemma adjoint_mat_input r c A B : fwdable m -> 0 < r -> 0 < c -> wf A -> shape A = [b; r; numel s'] -> wf B -> shape B = [b; numel s; c] ->
      exists AJ JB, snd (mjp m h x None (Some A) Input) = Ok (Some AJ) /\ snd (jmp m h' x None (Some B) Input) = Ok (Some JB) /\
        forall q i k, q < b -> i < r -> k < c ->
          bsum (numel s') (fun l => nmul (gt A [q; i; l]) (gt JB [q; l; k])) = bsum (numel s) (fun l => nmul (gt AJ [q; i; l]) (gt B [q; l; k])).
    Proof.
      intros Fb Hr Hc Wu Su Wv Sv. destruct (mjp_input m s s' b x Ty Hb Wx Sx h h r A Hr Wu Su) as (J & E1 & _ & _ & E2).
      destruct (jmp_input m s s' b x Ty Hb Wx Sx h h' None c B Fb (or_introl eq_refl) Hc Wv Sv) as (J' & E1' & _ & _ & E2').
      assert (J' = J) by congruence. subst J'. do 2 eexists. split; [exact E2|]. split; [exact E2'|]. intros. now apply MJ_JM.
    Qed.
    Lemma adjoint_mat_weight r c A B : fwdable m -> skips_param m -> n_params m <> 0 -> 0 < r -> 0 < c ->
      wf A -> shape A = [b; r; numel s'] -> wf B -> shape B = [b; n_params m; c] ->
      exists AJ JB, snd (mjp m h x None (Some A) Weight) = Ok (Some AJ) /\ snd (jmp m h' x None (Some B) Weight) = Ok (Some JB) /\
        forall q i k, q < b -> i < r -> k < c ->
          bsum (numel s') (fun l => nmul (gt A [q; i; l]) (gt JB [q; l; k])) = bsum (n_params m) (fun l => nmul (gt AJ [q; i; l]) (gt B [q; l; k])).
    Proof.
      intros Fb Sp D Hr Hc Wu Su Wv Sv. destruct (mjp_weight m s s' b x Ty Hb Wx Sx h h r A Hr Wu Su) as [E _]. destruct (E D) as (J & E1 & _ & _ & E2).
      destruct (jmp_weight m s s' b x Ty Hb Wx Sx h h' None c B Fb Sp (or_introl eq_refl) Hc Wv Sv) as [E' _]. destruct (E' D) as (J' & E1' & _ & _ & E2').
      assert (J' = J) by congruence. subst J'. do 2 eexists. split; [exact E2|]. split; [exact E2'|]. intros. now apply MJ_JM.
    Qed.

    Section L.
      Variables a c : K.
      Lemma linear_vjp u v w : w <> Other -> wf u -> shape u = [b; numel s'] -> wf v -> shape v = [b; numel s'] ->
        exists Yu Yv, snd (vjp m h x None u w) = Ok Yu /\ snd (vjp m h' x None v w) = Ok Yv /\ snd (vjp m h'' x None (lin a c u v) w) = Ok (olin a c Yu Yv).
      Proof.
        intros Hw Wu Su Wv Sv. pose proof (wf_lin a c u v) as Wl. assert (Sl : shape (lin a c u v) = [b; numel s']) by now rewrite shape_lin.
        destruct w; [| |congruence].
        - destruct (vjp_input m s s' b x Ty Hb Wx Sx h h u Wu Su) as (J & E1 & _ & _ & ->).
          destruct (vjp_input m s s' b x Ty Hb Wx Sx h h' v Wv Sv) as (J2 & E2 & _ & _ & ->).
          destruct (vjp_input m s s' b x Ty Hb Wx Sx h h'' _ Wl Sl) as (J3 & E3 & _ & _ & ->).
          assert (J2 = J) by congruence. assert (J3 = J) by congruence. subst. do 2 eexists. repeat split. cbn [olin]. now rewrite vJ_lin.
        - destruct (vjp_weight m s s' b x Ty Hb Wx Sx h h u Wu Su) as [E1 Q1]. destruct (vjp_weight m s s' b x Ty Hb Wx Sx h h' v Wv Sv) as [E2 Q2].
          destruct (vjp_weight m s s' b x Ty Hb Wx Sx h h'' _ Wl Sl) as [E3 Q3]. destruct (Nat.eq_dec (n_params m) 0) as [D|D].
          + rewrite Q1, Q2, Q3 by auto. now exists None, None.
          + destruct (E1 D) as (J & F1 & _ & _ & ->). destruct (E2 D) as (J2 & F2 & _ & _ & ->). destruct (E3 D) as (J3 & F3 & _ & _ & ->).
            assert (J2 = J) by congruence. assert (J3 = J) by congruence. subst. do 2 eexists. repeat split. cbn [olin]. now rewrite vJ_lin.
      Qed.
      Lemma linear_mjp r u v w : w <> Other -> 0 < r -> wf u -> shape u = [b; r; numel s'] -> wf v -> shape v = [b; r; numel s'] ->
        exists Yu Yv, snd (mjp m h x None (Some u) w) = Ok Yu /\ snd (mjp m h' x None (Some v) w) = Ok Yv /\ snd (mjp m h'' x None (Some (lin a c u v)) w) = Ok (olin a c Yu Yv).
      Proof.
        intros Hw Hr Wu Su Wv Sv. pose proof (wf_lin a c u v) as Wl. assert (Sl : shape (lin a c u v) = [b; r; numel s']) by now rewrite shape_lin.
        destruct w; [| |congruence].
        - destruct (mjp_input m s s' b x Ty Hb Wx Sx h h r u Hr Wu Su) as (J & E1 & _ & _ & ->).
          destruct (mjp_input m s s' b x Ty Hb Wx Sx h h' r v Hr Wv Sv) as (J2 & E2 & _ & _ & ->).
          destruct (mjp_input m s s' b x Ty Hb Wx Sx h h'' r _ Hr Wl Sl) as (J3 & E3 & _ & _ & ->).
          assert (J2 = J) by congruence. assert (J3 = J) by congruence. subst. do 2 eexists. repeat split. cbn [olin]. now rewrite MJ_lin.
        - destruct (mjp_weight m s s' b x Ty Hb Wx Sx h h r u Hr Wu Su) as [E1 Q1]. destruct (mjp_weight m s s' b x Ty Hb Wx Sx h h' r v Hr Wv Sv) as [E2 Q2].
          destruct (mjp_weight m s s' b x Ty Hb Wx Sx h h'' r _ Hr Wl Sl) as [E3 Q3]. destruct (Nat.eq_dec (n_params m) 0) as [D|D].
          + rewrite Q1, Q2, Q3 by auto. now exists None, None.
          + destruct (E1 D) as (J & F1 & _ & _ & ->). destruct (E2 D) as (J2 & F2 & _ & _ & ->). destruct (E3 D) as (J3 & F3 & _ & _ & ->).
            assert (J2 = J) by congruence. assert (J3 = J) by congruence. subst. do 2 eexists. repeat split. cbn [olin]. now rewrite MJ_lin.
      Qed.
      Lemma linear_jvp u v w : w <> Other -> fwdable m -> (w = Weight -> skips_param m) ->
        wf u -> shape u = [b; match w with Input => numel s | _ => n_params m end] -> wf v -> shape v = [b; match w with Input => numel s | _ => n_params m end] ->
        exists Yu Yv, snd (jvp m h x None u w) = Ok Yu /\ snd (jvp m h' x None v w) = Ok Yv /\ snd (jvp m h'' x None (lin a c u v) w) = Ok (olin a c Yu Yv).
      Proof.
        intros Hw Fb Sp Wu Su Wv Sv. pose proof (wf_lin a c u v) as Wl. pose proof (shape_lin a c u v) as Sl. rewrite Su in Sl. pose proof (or_introl eq_refl : val_ok m x None) as Vo.
        destruct w; [| |congruence].
        - destruct (jvp_input m s s' b x Ty Hb Wx Sx h h _ u Fb Vo Wu Su) as (J & E1 & _ & _ & ->).
          destruct (jvp_input m s s' b x Ty Hb Wx Sx h h' _ v Fb Vo Wv Sv) as (J2 & E2 & _ & _ & ->).
          destruct (jvp_input m s s' b x Ty Hb Wx Sx h h'' _ _ Fb Vo Wl Sl) as (J3 & E3 & _ & _ & ->).
          assert (J2 = J) by congruence. assert (J3 = J) by congruence. subst. do 2 eexists. repeat split. cbn [olin]. now rewrite Jv_lin.
        - specialize (Sp eq_refl). destruct (jvp_weight m s s' b x Ty Hb Wx Sx h h _ u Fb Sp Vo Wu Su) as [E1 Q1]. destruct (jvp_weight m s s' b x Ty Hb Wx Sx h h' _ v Fb Sp Vo Wv Sv) as [E2 Q2].
          destruct (jvp_weight m s s' b x Ty Hb Wx Sx h h'' _ _ Fb Sp Vo Wl Sl) as [E3 Q3]. destruct (Nat.eq_dec (n_params m) 0) as [D|D].
          + rewrite Q1, Q2, Q3 by auto. now exists None, None.
          + destruct (E1 D) as (J & F1 & _ & _ & ->). destruct (E2 D) as (J2 & F2 & _ & _ & ->). destruct (E3 D) as (J3 & F3 & _ & _ & ->).
            assert (J2 = J) by congruence. assert (J3 = J) by congruence. subst. do 2 eexists. repeat split. cbn [olin]. now rewrite Jv_lin.
      Qed.
      Lemma linear_jmp k u v w : w <> Other -> fwdable m -> (w = Weight -> skips_param m) -> 0 < k ->
        wf u -> shape u = [b; match w with Input => numel s | _ => n_params m end; k] -> wf v -> shape v = [b; match w with Input => numel s | _ => n_params m end; k] ->
        exists Yu Yv, snd (jmp m h x None (Some u) w) = Ok Yu /\ snd (jmp m h' x None (Some v) w) = Ok Yv /\ snd (jmp m h'' x None (Some (lin a c u v)) w) = Ok (olin a c Yu Yv).
      Proof.
        intros Hw Fb Sp Hk Wu Su Wv Sv. pose proof (wf_lin a c u v) as Wl. pose proof (shape_lin a c u v) as Sl. rewrite Su in Sl. pose proof (or_introl eq_refl : val_ok m x None) as Vo.
        destruct w; [| |congruence].
        - destruct (jmp_input m s s' b x Ty Hb Wx Sx h h _ k u Fb Vo Hk Wu Su) as (J & E1 & _ & _ & ->).
          destruct (jmp_input m s s' b x Ty Hb Wx Sx h h' _ k v Fb Vo Hk Wv Sv) as (J2 & E2 & _ & _ & ->).
          destruct (jmp_input m s s' b x Ty Hb Wx Sx h h'' _ k _ Fb Vo Hk Wl Sl) as (J3 & E3 & _ & _ & ->).
          assert (J2 = J) by congruence. assert (J3 = J) by congruence. subst. do 2 eexists. repeat split. cbn [olin]. now rewrite JM_lin.
        - specialize (Sp eq_refl). destruct (jmp_weight m s s' b x Ty Hb Wx Sx h h _ k u Fb Sp Vo Hk Wu Su) as [E1 Q1]. destruct (jmp_weight m s s' b x Ty Hb Wx Sx h h' _ k v Fb Sp Vo Hk Wv Sv) as [E2 Q2].
          destruct (jmp_weight m s s' b x Ty Hb Wx Sx h h'' _ k _ Fb Sp Vo Hk Wl Sl) as [E3 Q3]. destruct (Nat.eq_dec (n_params m) 0) as [D|D].
          + rewrite Q1, Q2, Q3 by auto. now exists None, None.
          + destruct (E1 D) as (J & F1 & _ & _ & ->). destruct (E2 D) as (J2 & F2 & _ & _ & ->). destruct (E3 D) as (J3 & F3 & _ & _ & ->).
            assert (J2 = J) by congruence. assert (J3 = J) by congruence. subst. do 2 eexists. repeat split. cbn [olin]. now rewrite JM_lin.
      Qed.
      Lemma pull_lin J fd (u v : T) q i k : shape u = metric_shape fd b (numel s') -> q < b ->
        pull_at (numel s') J (metric fd (lin a c u v)) q i k = flin a c (pull_at (numel s') J (metric fd u)) (pull_at (numel s') J (metric fd v)) q i k.
      Proof. intros S Hq. rewrite <- pull_at_lin. apply pull_at_ext; auto. intros. now apply (metric_lin a c fd b (numel s')). Qed.
      Lemma push_lin n J fd (u v : T) q i k : shape u = metric_shape fd b n -> q < b ->
        push_at n J (metric fd (lin a c u v)) q i k = flin a c (push_at n J (metric fd u)) (push_at n J (metric fd v)) q i k.
      Proof. intros S Hq. rewrite <- push_at_lin. apply push_at_ext; auto. intros. now apply (metric_lin a c fd b n). Qed.
      Lemma push_lin_layers n la J fd (u v : T) q i k : shape u = metric_shape fd b n -> q < b ->
        push_at n J (same_layer la (metric fd (lin a c u v))) q i k = flin a c (push_at n J (same_layer la (metric fd u))) (push_at n J (same_layer la (metric fd v))) q i k.
      Proof.
        intros S Hq. rewrite <- push_at_lin. apply push_at_ext; auto. intros. unfold same_layer, flin. destruct Nat.eqb; [now apply (metric_lin a c fd b n)|ring].
      Qed.
      Lemma linear_jTmjp fd td u v w : w <> Other -> all_sym m -> nonempty m -> wf u -> shape u = metric_shape fd b (numel s') -> wf v -> shape v = metric_shape fd b (numel s') ->
        exists Yu Yv, snd (jTmjp m h x None (VT u) w fd td false) = Ok Yu /\ snd (jTmjp m h' x None (VT v) w fd td false) = Ok Yv /\
          snd (jTmjp m h'' x None (VT (lin a c u v)) w fd td false) = Ok (vlin a c Yu Yv).
      Proof.
        intros Hw Sy Ne Wu Su Wv Sv. pose proof (wf_lin a c u v) as Wl. pose proof (shape_lin a c u v) as Sl. rewrite Su in Sl.
        destruct w; [| |congruence].
        - destruct (jTmjp_input m s s' b x Ty Hb Wx Sx h h fd td u Sy Ne Wu Su) as (J & E1 & _ & _ & ->).
          destruct (jTmjp_input m s s' b x Ty Hb Wx Sx h h' fd td v Sy Ne Wv Sv) as (J2 & E2 & _ & _ & ->).
          destruct (jTmjp_input m s s' b x Ty Hb Wx Sx h h'' fd td _ Sy Ne Wl Sl) as (J3 & E3 & _ & _ & ->).
          assert (J2 = J) by congruence. assert (J3 = J) by congruence. subst. do 2 eexists. repeat split. cbn [vlin]. unfold pull. rewrite <- present_lin.
          do 2 f_equal. apply present_ext. intros. now apply pull_lin.
        - destruct (jTmjp_weight m s s' b x Ty Hb Wx Sx h h fd td u Sy Ne Wu Su) as [E1 Q1].
          destruct (jTmjp_weight m s s' b x Ty Hb Wx Sx h h' fd td v Sy Ne Wv Sv) as [E2 Q2].
          destruct (jTmjp_weight m s s' b x Ty Hb Wx Sx h h'' fd td _ Sy Ne Wl Sl) as [E3 Q3]. destruct (Nat.eq_dec (n_params m) 0) as [D|D].
          + rewrite Q1, Q2, Q3 by auto. now exists VNone, VNone.
          + destruct (E1 D) as (J & F1 & _ & _ & ->). destruct (E2 D) as (J2 & F2 & _ & _ & ->). destruct (E3 D) as (J3 & F3 & _ & _ & ->).
            assert (J2 = J) by congruence. assert (J3 = J) by congruence. subst. do 2 eexists. repeat split. f_equal. rewrite <- wval_lin.
            apply wval_ext. intros. now apply pull_lin.
      Qed.
      Lemma linear_jmjTp fd td u v w : w <> Other -> fwdable m -> nonempty m -> (w = Weight -> n_params m <> 0) ->
        wf u -> shape u = metric_shape fd b (match w with Input => numel s | _ => n_params m end) ->
        wf v -> shape v = metric_shape fd b (match w with Input => numel s | _ => n_params m end) ->
        exists Yu Yv, snd (jmjTp m h x None (VT u) w fd td false) = Ok Yu /\ snd (jmjTp m h' x None (VT v) w fd td false) = Ok Yv /\
          snd (jmjTp m h'' x None (VT (lin a c u v)) w fd td false) = Ok (vlin a c Yu Yv).
      Proof.
        intros Hw Fb Ne D Wu Su Wv Sv. pose proof (wf_lin a c u v) as Wl. pose proof (shape_lin a c u v) as Sl. rewrite Su in Sl.
        destruct w; [| |congruence].
        - destruct (jmjTp_input m s s' b x Ty Hb Wx Sx h h fd td u Fb Ne Wu Su) as (J & E1 & _ & _ & ->).
          destruct (jmjTp_input m s s' b x Ty Hb Wx Sx h h' fd td v Fb Ne Wv Sv) as (J2 & E2 & _ & _ & ->).
          destruct (jmjTp_input m s s' b x Ty Hb Wx Sx h h'' fd td _ Fb Ne Wl Sl) as (J3 & E3 & _ & _ & ->).
          assert (J2 = J) by congruence. assert (J3 = J) by congruence. subst. do 2 eexists. repeat split. cbn [vlin]. unfold push. rewrite <- present_lin.
          do 2 f_equal. apply present_ext. intros. now apply push_lin.
        - specialize (D eq_refl). destruct (jmjTp_weight m s s' b x Ty Hb Wx Sx h h fd td u Fb Ne D Wu Su) as (J & E1 & _ & _ & ->).
          destruct (jmjTp_weight m s s' b x Ty Hb Wx Sx h h' fd td v Fb Ne D Wv Sv) as (J2 & E2 & _ & _ & ->).
          destruct (jmjTp_weight m s s' b x Ty Hb Wx Sx h h'' fd td _ Fb Ne D Wl Sl) as (J3 & E3 & _ & _ & ->).
          assert (J2 = J) by congruence. assert (J3 = J) by congruence. subst. do 2 eexists. repeat split. cbn [vlin]. rewrite <- present_lin.
          do 2 f_equal. apply present_ext. intros. now apply push_lin_layers.
      Qed.
    End L.

    (** *** symmetry *)
    Lemma present_sym n R : (forall q, q < b -> sym_at n R q) -> square_sym b n (present false b n R).
    Proof.
      intros S. split; [reflexivity|]. intros q Hq i k Hi Hk. unfold entry, present. rewrite !get_tab3 by auto. now apply S.
    Qed.
    Lemma metric_true_sym n (M : T) q : sym_at n (metric true M) q.
    Proof. intros i k Hi Hk. unfold metric. destruct (Nat.eqb_spec i k) as [->|Ne]; [now rewrite Nat.eqb_refl|]. replace (k =? i) with false; auto. symmetry. now apply Nat.eqb_neq; auto. Qed.
    Lemma all_blocks_VL (P : T -> Prop) l : all_blocks P (VL l) <-> Forall (all_blocks P) l.
    Proof. cbn. induction l as [|v l IH]; split; auto; [intros [A B]; constructor; auto; now apply IH|intros A; inversion A; subst; split; auto; now apply IH]. Qed.
    (** every block of the list is a window on the diagonal of R *)
    Lemma wval_windows R (P : T -> Prop) td N : (forall n off, off + n <= N -> P (block td b n off R)) ->
      forall (m : module K) off, off + n_params m <= N -> all_blocks P (wval td b R m off).
    Proof using Type.
      clear Hb. intros HP. refine (module_ind2 (fun m => forall off, off + n_params m <= N -> all_blocks P (wval td b R m off))
        (fun ms => forall off, off + seq_np ms <= N -> Forall (all_blocks P) (wvals (wval td b R) ms off)) _ _ _ _ _ _).
      - intros l off L. cbn [wval]. destruct Nat.eqb; [exact I|]. cbn. now apply HP.
      - intros; exact I.
      - intros hk ms IH off L. cbn [wval]. destruct Nat.eqb; [exact I|]. destruct td; [cbn [all_blocks]; now apply HP|]. apply all_blocks_VL. now apply IH.
      - intros F IH off L. cbn [wval]. now apply IH.
      - constructor.
      - intros m0 ms IHm IHs off L. change (off + (n_params m0 + seq_np ms) <= N) in L. cbn [wvals]. assert (A : all_blocks P (wval td b R m0 off)) by (apply IHm; lia).
        assert (B : Forall (all_blocks P) (wvals (wval td b R) ms (off + n_params m0))) by (apply IHs; lia).
        destruct (wval td b R m0 off); auto.
    Qed.
    Lemma sym_jTmjp_input fd M : all_sym m -> nonempty m -> wf M -> shape M = metric_shape fd b (numel s') ->
      (forall q, q < b -> sym_at (numel s') (metric fd M) q) ->
      exists G, snd (jTmjp m h x None (VT M) Input fd false false) = Ok (VT G) /\ square_sym b (numel s) G.
    Proof.
      intros Sy Ne WM SM MS. destruct (jTmjp_input m s s' b x Ty Hb Wx Sx h h fd false M Sy Ne WM SM) as (J & _ & _ & _ & ->).
      eexists. split; [reflexivity|]. apply present_sym. intros. apply sym_pull. auto.
    Qed.
    Lemma sym_jTmjp_weight fd M : all_sym m -> nonempty m -> wf M -> shape M = metric_shape fd b (numel s') ->
      (forall q, q < b -> sym_at (numel s') (metric fd M) q) ->
      exists G, snd (jTmjp m h x None (VT M) Weight fd false false) = Ok G /\ all_blocks (fun t => exists n, square_sym b n t) G.
    Proof.
      intros Sy Ne WM SM MS. destruct (jTmjp_weight m s s' b x Ty Hb Wx Sx h h fd false M Sy Ne WM SM) as [E N].
      destruct (Nat.eq_dec (n_params m) 0) as [D|D].
      - rewrite N by auto. exists VNone. split; [reflexivity|exact I].
      - destruct (E D) as (J & _ & _ & _ & ->). eexists. split; [reflexivity|]. apply (wval_windows _ _ false (n_params m)); [|lia].
        intros n off L. exists n. apply present_sym. intros q Hq i k Hi Hk. apply (sym_pull (n_params m) (numel s')); auto; lia.
    Qed.
    Lemma sym_push n m' J M q : sym_at n M q -> sym_at m' (push_at n J M) q.
    Proof. intros S i k Hi Hk. rewrite !push_pull. now apply (sym_pull m' n). Qed.
    Lemma sym_jmjTp_input fd M : fwdable m -> nonempty m -> wf M -> shape M = metric_shape fd b (numel s) ->
      (forall q, q < b -> sym_at (numel s) (metric fd M) q) ->
      exists G, snd (jmjTp m h x None (VT M) Input fd false false) = Ok (VT G) /\ square_sym b (numel s') G.
    Proof.
      intros Sy Ne WM SM MS. destruct (jmjTp_input m s s' b x Ty Hb Wx Sx h h fd false M Sy Ne WM SM) as (J & _ & _ & _ & ->).
      eexists. split; [reflexivity|]. apply present_sym. intros. apply sym_push. auto.
    Qed.
    Lemma sym_jmjTp_weight fd M : fwdable m -> nonempty m -> n_params m <> 0 -> wf M -> shape M = metric_shape fd b (n_params m) ->
      (forall q, q < b -> sym_at (n_params m) (metric fd M) q) ->
      exists G, snd (jmjTp m h x None (VT M) Weight fd false false) = Ok (VT G) /\ square_sym b (numel s') G.
    Proof.
      intros Sy Ne D WM SM MS. destruct (jmjTp_weight m s s' b x Ty Hb Wx Sx h h fd false M Sy Ne D WM SM) as (J & _ & _ & _ & ->).
      eexists. split; [reflexivity|]. apply present_sym. intros. apply sym_push. intros i k Hi Hk. unfold same_layer.
      rewrite Nat.eqb_sym. destruct Nat.eqb; auto. now apply MS.
    Qed.
  End Net.

  (** *** splicing keeps the blocks of a weight-wise result, up to nesting *)
  Lemma flat_VL (l : list (value K)) : flat (VL l) = flat_map flat l.
  Proof. induction l as [|v l IH]; [reflexivity|]. change (flat v ++ flat (VL l) = flat v ++ flat_map flat l). now rewrite IH. Qed.
  Lemma flat_wvals td b R (ms : list (module K)) off : flat_map flat (wvals (wval td b R) ms off) =
    match ms with [] => [] | m :: ms => flat (wval td b R m off) ++ flat_map flat (wvals (wval td b R) ms (off + n_params m)) end.
  Proof. destruct ms as [|m ms]; auto. cbn [wvals]. destruct (wval td b R m off); reflexivity. Qed.
  Lemma flat_wvals_app td b R (a r : list (module K)) : forall off, flat_map flat (wvals (wval td b R) (a ++ r) off) =
    flat_map flat (wvals (wval td b R) a off) ++ flat_map flat (wvals (wval td b R) r (off + seq_np a)).
  Proof.
    induction a as [|m a IH]; intros off.
    - cbn. now rewrite Nat.add_0_r.
    - cbn [app]. rewrite flat_wvals, IH, (flat_wvals td b R (m :: a)), app_assoc. do 3 f_equal.
      change (off + n_params m + seq_np a = off + (n_params m + seq_np a)). lia.
  Qed.
  Lemma flat_none b R (ms : list (module K)) : forall off, seq_np ms = 0 -> flat_map flat (wvals (wval false b R) ms off) = [].
  Proof.
    induction ms as [|m ms IH]; intros off Hn; auto. change (n_params m + seq_np ms = 0) in Hn. rewrite flat_wvals, IH by lia. rewrite app_nil_r.
    rewrite (proj2 (wval_none false b R m off)) by lia. reflexivity.
  Qed.
  Lemma flat_Seq b R h (ms : list (module K)) off : flat (wval false b R (Seq h ms) off) = flat_map flat (wvals (wval false b R) ms off).
  Proof.
    cbn [wval]. destruct (Nat.eqb_spec (n_params (Seq h ms)) 0) as [D|D]; [|apply flat_VL]. symmetry. apply flat_none. exact D.
  Qed.
  Lemma flat_splice b R (p a r : list (module K)) off :
    flat (wval false b R (Seq true (p ++ Seq true a :: r)) off) = flat (wval false b R (Seq true (p ++ a ++ r)) off).
  Proof.
    rewrite !flat_Seq, !flat_wvals_app. f_equal. now rewrite flat_wvals, flat_Seq.
  Qed.
End Algebra.

Lemma bsumR_nonneg n (f : nat -> R) : (forall i, i < n -> (0 <= f i)%R) -> (0 <= bsum n f)%R.
Proof.
  induction n; intros P; [apply Rle_refl|]. cbn [bsum]. apply Rplus_le_le_0_compat; [apply IHn; auto|apply P; auto].
Qed.
Lemma psd_pull n m J M q : psd_at m M q -> psd_at n (pull_at m J M) q.
Proof. intros P v. rewrite quad_pull. apply P. Qed.
Lemma psd_diag n M q j : j < n -> psd_at n M q -> (0 <= M q j j)%R.
Proof. intros Hj P. rewrite <- (quad_delta n M q j Hj). apply P. Qed.
Lemma psd_ext n M M' q : (forall i k, i < n -> k < n -> M q i k = M' q i k) -> psd_at n M q -> psd_at n M' q.
Proof. intros E P v. rewrite <- (quad_ext n M M' q v E). apply P. Qed.
Lemma psd_layers n la M q : (forall p, p < n -> la p < n) -> psd_at n M q -> psd_at n (same_layer la M) q.
Proof. intros L P v. rewrite quad_classes by auto. apply bsumR_nonneg. intros. apply P. Qed.

(** *** positive semidefiniteness *)
Lemma psd_present td b n M : (forall q, q < b -> sym_at n M q /\ psd_at n M q) -> psd_shaped td b n (present td b n M).
Proof.
  intros P. destruct td; (split; [reflexivity|]).
  - intros q j Hq Hj. unfold present. change 0%R with (@n0 R _). rewrite get_tab2 by auto. apply (psd_diag n); auto. now apply P.
  - intros q Hq. destruct (P q Hq) as [S D]. split.
    + destruct (present_sym b n M (fun q Hq => proj1 (P q Hq))) as [_ E]. now apply E.
    + apply (psd_ext n M); auto. intros. unfold entry, present. now rewrite get_tab3.
Qed.
Lemma psd_window N n off M q : off + n <= N -> psd_at N M q -> psd_at n (fun q i k => M q (off + i) (off + k)) q.
Proof. intros L P v. rewrite (quad_window N off n M q v L). apply P. Qed.
Lemma psd_push n m' J M q : psd_at n M q -> psd_at m' (push_at n J M) q.
Proof. intros P. apply (psd_ext m' (pull_at n (fun q j i => J q i j) M)); [intros; symmetry; apply push_pull|]. now apply psd_pull. Qed.
(** a diagonal metric is positive semidefinite iff its entries are nonnegative *)
Lemma psd_diagonal n (M : tensor R) q : (forall j, j < n -> (0 <= get 0 M [q; j])%R) -> psd_at n (metric true M) q.
Proof.
  intros P v. unfold quad, metric. apply bsumR_nonneg. intros i Hi.
  rewrite (bsum_ext n _ (fun k => nmul (delta i k) (nmul (nmul (v i) (get n0 M [q; i])) (v k)))).
  - rewrite bsum_delta_l by auto. cbn [nmul n0 Num_R]. replace (v i * get 0 M [q; i] * v i)%R with (get 0 M [q; i] * (v i * v i))%R by ring.
    apply Rmult_le_pos; [auto|apply Rle_0_sqr].
  - intros k Hk. unfold delta. destruct (Nat.eqb i k); cbn [nmul n0 n1 Num_R]; ring.
Qed.

Section Psd.
  Variables (m : module R) (s s' : list nat) (b : nat) (x : tensor R).
  Hypotheses (Ty : typed m s s') (Hb : 0 < b) (Wx : wf x) (Sx : shape x = b :: s).
  Variable h : st R.
  Lemma psd_jTmjp_input fd td M : all_sym m -> nonempty m -> wf M -> shape M = metric_shape fd b (numel s') ->
    (forall q, q < b -> sym_at (numel s') (metric fd M) q /\ psd_at (numel s') (metric fd M) q) ->
    exists G, snd (jTmjp m h x None (VT M) Input fd td false) = Ok (VT G) /\ psd_shaped td b (numel s) G.
  Proof.
    intros Sy Ne WM SM MS. destruct (jTmjp_input m s s' b x Ty Hb Wx Sx h h fd td M Sy Ne WM SM) as (J & _ & _ & _ & ->).
    eexists. split; [reflexivity|]. apply psd_present. intros q Hq. destruct (MS q Hq). split; [now apply sym_pull|now apply psd_pull].
  Qed.
  Lemma psd_jTmjp_weight fd td M : all_sym m -> nonempty m -> wf M -> shape M = metric_shape fd b (numel s') ->
    (forall q, q < b -> sym_at (numel s') (metric fd M) q /\ psd_at (numel s') (metric fd M) q) ->
    exists G, snd (jTmjp m h x None (VT M) Weight fd td false) = Ok G /\ all_blocks (fun t => exists n, psd_shaped td b n t) G.
  Proof.
    intros Sy Ne WM SM MS. destruct (jTmjp_weight m s s' b x Ty Hb Wx Sx h h fd td M Sy Ne WM SM) as [E N].
    destruct (Nat.eq_dec (n_params m) 0) as [D|D].
    - rewrite N by auto. exists VNone. split; [reflexivity|exact I].
    - destruct (E D) as (J & _ & _ & _ & ->). eexists. split; [reflexivity|]. apply (wval_windows b (pull_at (numel s') (entry J) (metric fd M)) _ td (n_params m)); [|lia].
      intros n off L. exists n. apply psd_present. intros q Hq. destruct (MS q Hq). split.
      + intros i k Hi Hk. apply (sym_pull (n_params m) (numel s')); auto; lia.
      + apply (psd_window (n_params m)); auto. now apply psd_pull.
  Qed.
  Lemma psd_jmjTp_input fd td M : fwdable m -> nonempty m -> wf M -> shape M = metric_shape fd b (numel s) ->
    (forall q, q < b -> sym_at (numel s) (metric fd M) q /\ psd_at (numel s) (metric fd M) q) ->
    exists G, snd (jmjTp m h x None (VT M) Input fd td false) = Ok (VT G) /\ psd_shaped td b (numel s') G.
  Proof.
    intros Sy Ne WM SM MS. destruct (jmjTp_input m s s' b x Ty Hb Wx Sx h h fd td M Sy Ne WM SM) as (J & _ & _ & _ & ->).
    eexists. split; [reflexivity|]. apply psd_present. intros q Hq. destruct (MS q Hq). split; [now apply sym_push|now apply psd_push].
  Qed.
  Lemma psd_jmjTp_weight fd td M : fwdable m -> nonempty m -> n_params m <> 0 -> wf M -> shape M = metric_shape fd b (n_params m) ->
    (forall q, q < b -> sym_at (n_params m) (metric fd M) q /\ psd_at (n_params m) (metric fd M) q) ->
    exists G, snd (jmjTp m h x None (VT M) Weight fd td false) = Ok (VT G) /\ psd_shaped td b (numel s') G.
  Proof.
    intros Sy Ne D WM SM MS. destruct (jmjTp_weight m s s' b x Ty Hb Wx Sx h h fd td M Sy Ne D WM SM) as (J & _ & _ & _ & ->).
    eexists. split; [reflexivity|]. apply psd_present. intros q Hq. destruct (MS q Hq) as [A B]. split.
    - apply sym_push. intros i k Hi Hk. unfold same_layer. rewrite Nat.eqb_sym. destruct Nat.eqb; auto.
    - apply psd_push, psd_layers; auto. intros p Hp. pose proof (leaf_at_le m p). lia.
  Qed.
End Psd.
