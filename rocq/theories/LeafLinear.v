(** The Linear layer satisfies the layer specifications. *)
From Coq Require Import String Ascii List Arith ZArith Lia Bool.
From Verif Require Import Scalar Sums Tensor TensorLemmas EinsumLemmas Conv Abstract Simple LinearLayer ConvLayer PoolLayer
  Module Spec OpLemmas ReshapeLemmas Jac LeafSpec LeafSimple.
Import ListNotations.
Local Open Scope nat_scope.
Local Open Scope list_scope.

Section Lin.
  Context {K} `{CR : CRing K}.
  Add Ring Kring : (cring : ring_theory n0 n1 nadd nmul nsub nopp (@eq K)).
  Notation gt := (get (@n0 K _)).
  Notation T := (tensor K).

  Section L.
    Variables (W : T) (bias : option T) (c1 c2 b : nat) (x y : T) (val : option T).
    Hypothesis (SW : shape W = [c2; c1]) (WW : wf W) (BO : bias_ok bias c2).
    Hypothesis (Hc1 : 0 < c1) (Hc2 : 0 < c2) (Hb : 0 < b) (Wx : wf x) (Sx : shape x = [b; c1]).
    Hypothesis (Fy : lin_forward W bias x = Ok y) (V : val = None \/ val = Some y).
    Let nb := match bias with Some _ => c2 | None => 0 end.
    Let P := c2 * c1 + nb.
    Let JX : nat -> nat -> nat -> K := fun _ i j => gt W [i; j].
    Let JW : nat -> nat -> nat -> K := lin_JW c1 c2 x.

    Lemma lin_P : lin_n_params W bias = P.
    Proof.
      unfold lin_n_params, P, nb. rewrite SW. destruct bias as [t|]; numels; [|lia].
      destruct BO as [-> _]. numels. lia.
    Qed.
    Lemma lin_fwd_ok : lin_forward W bias x = Ok (tab2 b c2 (fun n k =>
               let s := bsum c1 (fun j => nmul (gt x [n; j]) (gt W [k; j])) in
               match bias with Some t => nadd s (gt t [k]) | None => s end)).
    Proof.
      clear Fy. unfold lin_forward. rewrite Sx, SW, Nat.eqb_refl. cbn [check].
      destruct bias as [t|]; [|reflexivity]. destruct BO as [-> _]. rewrite shape_eqb_refl. reflexivity.
    Qed.
    Lemma lin_y : wf y /\ shape y = [b; c2].
    Proof. rewrite lin_fwd_ok in Fy. injection Fy as <-. split; [apply wf_tab|reflexivity]. Qed.
    Lemma lin_val_ok : lin_val W bias x val = Ok y.
    Proof. unfold lin_val. destruct V as [-> | ->]; auto. Qed.
    Lemma size1_y : size 1 y = Ok c2.
    Proof. unfold size. destruct lin_y as [_ ->]. reflexivity. Qed.
    Lemma unpack2_ok (t : T) a c : shape t = [a; c] -> unpack2 t = Ok (a, c).
    Proof. intros S. unfold unpack2. now rewrite S. Qed.

    (** sums against the weight Jacobian *)
    Lemma lin_col q p (f : nat -> K) : p < P ->
      bsum c2 (fun i => nmul (f i) (JW q i p)) =
      if p <? c2 * c1 then nmul (f (p / c1)) (gt x [q; p mod c1]) else f (p - c2 * c1).
    Proof.
      intros Hp. unfold JW, lin_JW. destruct (Nat.ltb_spec p (c2 * c1)) as [L|L].
      - destruct (divmod_lt p c2 c1 L) as (D & M & _).
        rewrite (bsum_single c2 (p / c1)); auto.
        + rewrite delta_refl. ring.
        + intros k _ N. rewrite delta_neq by auto. ring.
      - assert (D : p - c2 * c1 < c2) by (unfold P, nb in Hp; destruct bias; lia).
        rewrite (bsum_single c2 (p - c2 * c1)); auto.
        + rewrite delta_refl. ring.
        + intros k _ N. rewrite delta_neq by auto. ring.
    Qed.
    Lemma lin_row q i (f : nat -> K) : i < c2 ->
      bsum P (fun p => nmul (JW q i p) (f p)) =
      nadd (bsum c1 (fun j => nmul (gt x [q; j]) (f (i * c1 + j))))
           (match bias with Some _ => f (c2 * c1 + i) | None => n0 end).
    Proof.
      intros Hi. unfold P. rewrite bsum_app. f_equal.
      - rewrite bsum_prod. rewrite (bsum_single c2 i); auto.
        + apply bsum_ext. intros j Hj. unfold JW, lin_JW.
          destruct (Nat.ltb_spec (i * c1 + j) (c2 * c1)); [|nia].
          destruct (divmod_flat c1 i j Hj) as [-> ->]. rewrite delta_refl. ring.
        + intros k Hk N. apply bsum_0. intros j Hj. unfold JW, lin_JW.
          destruct (Nat.ltb_spec (k * c1 + j) (c2 * c1)); [|nia].
          destruct (divmod_flat c1 k j Hj) as [-> ->]. rewrite delta_neq by auto. ring.
      - unfold nb. destruct bias; [|reflexivity]. rewrite (bsum_single c2 i); auto.
        + unfold JW, lin_JW. destruct (Nat.ltb_spec (c2 * c1 + i) (c2 * c1)); [lia|].
          replace (c2 * c1 + i - c2 * c1) with i by lia. rewrite delta_refl. ring.
        + intros k Hk N. unfold JW, lin_JW. destruct (Nat.ltb_spec (c2 * c1 + k) (c2 * c1)); [lia|].
          replace (c2 * c1 + k - c2 * c1) with k by lia. rewrite delta_neq by auto. ring.
    Qed.
    (** the two factors of a pulled-back metric *)
    Lemma lin_pull q j l M : j < P -> l < P ->
      pull_at c2 JW M q j l =
      let f p (g : nat -> K) := if p <? c2 * c1 then nmul (g (p / c1)) (gt x [q; p mod c1]) else g (p - c2 * c1) in
      f j (fun i => f l (fun k => M q i k)).
    Proof.
      intros Hj Hl. unfold pull_at. cbv zeta.
      transitivity (bsum c2 (fun i => nmul (if l <? c2 * c1 then nmul (M q i (l / c1)) (gt x [q; l mod c1])
                                            else M q i (l - c2 * c1)) (JW q i j))).
      - apply bsum_ext. intros i Hi. rewrite <- (lin_col q l (fun k => M q i k)) by auto.
        rewrite <- bsum_mul_r. apply bsum_ext. intros k Hk. ring.
      - now rewrite lin_col by auto.
    Qed.

    (** *** jacobian *)
    Lemma lin_jac_in : lin_jacobian W bias x val Input = Ok (Some (dense b c2 c1 JX)).
    Proof.
      unfold lin_jacobian. rewrite (unpack2_ok x _ _ Sx). cbn [bind]. do 2 f_equal. unfold expand_dim, unsqueeze0.
      cbn [shape set_nth]. rewrite SW. apply tab_ext. intros idx Vi. didx idx Vi. cbn [set_nth nth].
      unfold JX, get. cbn [shape data ravel]. rewrite SW. cbn [ravel]. reflexivity.
    Qed.
    Lemma lin_jac_w : lin_jacobian W bias x val Weight = Ok (Some (dense b c2 P JW)).
    Proof.
      unfold lin_jacobian. rewrite (unpack2_ok x _ _ Sx). cbn [bind]. rewrite lin_val_ok. cbn [bind].
      rewrite size1_y. cbn [bind].
      assert (E : diag_embed (@ones K _ [c2]) = Ok (tab2 c2 c2 (fun i j => delta i j))).
      { unfold diag_embed. cbn [shape ones fill_with tab app last length]. f_equal. apply tab_ext.
        intros idx Vi. didx idx Vi. cbn [nth firstn Nat.sub]. unfold delta. match goal with |- context [Nat.eqb ?a ?c] => destruct (Nat.eqb_spec a c); auto end.
        unfold ones, fill_with. rewrite get_tab; cbn; auto. }
      rewrite E. cbn [bind]. erewrite es_bk_ij_to_bijk by sh. cbn [bind].
      change (tab [b; c2; c2; c1] ?f) with (tab4 b c2 c2 c1 (fun q i j k => f [q; i; j; k])).
      rewrite merge23_4. cbn [bind].
      assert (E1 : forall q i p, q < b -> i < c2 -> p < c2 * c1 ->
                nmul (gt x [q; p mod c1]) (gt (tab2 c2 c2 (fun i j => delta i j)) [i; p / c1]) = JW q i p).
      { intros q i p Hq Hi Hp. destruct (divmod_lt p c2 c1 Hp) as (D & M & _).
        rewrite get_tab2 by auto. unfold JW, lin_JW. destruct (Nat.ltb_spec p (c2 * c1)); [|lia]. ring. }
      unfold P, nb. destruct bias as [t|].
      - erewrite cat2_3; [|reflexivity|reflexivity]. cbn [some bind]. do 2 f_equal.
        apply tab3_ext. intros q i p Hq Hi Hp. destruct (Nat.ltb_spec p (c2 * c1)).
        + rewrite get_tab3 by auto. now apply E1.
        + unfold expand_dim. cbn [shape unsqueeze0 tab2 tab set_nth]. rewrite get_tab by (cbn; repeat split; auto; lia).
          cbn [set_nth]. unfold JW, lin_JW. destruct (Nat.ltb_spec p (c2 * c1)); [lia|].
          transitivity (gt (tab2 c2 c2 (fun i j => delta i j)) [i; p - c2 * c1]).
          * unfold get. cbn [shape data tab2 tab unsqueeze0 ravel]. f_equal.
          * rewrite get_tab2 by (auto; lia). reflexivity.
      - rewrite Nat.add_0_r. do 2 f_equal. apply tab3_ext. intros. now apply E1.
    Qed.

    (** *** vjp, mjp *)
    Lemma lin_vjp_in v : shape v = [b; c2] -> lin_vjp W bias x val v Input = Ok (Some (vJ b c2 c1 JX v)).
    Proof. intros S. unfold lin_vjp. erewrite es_bj_jk_to_bk by sh. reflexivity. Qed.
    Lemma lin_vjp_w v : shape v = [b; c2] -> lin_vjp W bias x val v Weight = Ok (Some (vJ b c2 P JW v)).
    Proof.
      intros S. unfold lin_vjp. rewrite (unpack2_ok x _ _ Sx). cbn [bind]. erewrite es_bi_bj_to_bij by sh. cbn [bind].
      rewrite reshape_m1_eq with (n := c2 * c1) by (cbn [shape tab3 tab]; numels; nia). cbn [app].
      rewrite merge12_3. cbn [bind].
      unfold vJ. rewrite (tab2_ext b P _ _ (fun q p _ Hp => lin_col q p (fun i => gt v [q; i]) Hp)).
      unfold P, nb in *. destruct bias as [t|] eqn:Eb.
      - erewrite cat1_2; [|reflexivity|exact S]. cbn [some bind]. do 2 f_equal.
        apply tab2_ext. intros q p Hq Hp.
        destruct (Nat.ltb_spec p (c2 * c1)); [|reflexivity]. now rewrite get_tab2 by auto.
      - rewrite Nat.add_0_r in *. do 2 f_equal. apply tab2_ext. intros q p Hq Hp.
        destruct (Nat.ltb_spec p (c2 * c1)); [|lia]. reflexivity.
    Qed.
    Lemma lin_mjp_in r M : shape M = [b; r; c2] -> lin_mjp W bias x val (Some M) Input = Ok (Some (MJ b r c2 c1 JX M)).
    Proof. intros S. unfold lin_mjp. erewrite es_bij_jk_to_bik by sh. reflexivity. Qed.
    Lemma lin_mjp_w val' r M : 0 < r -> shape M = [b; r; c2] ->
      lin_mjp W bias x val' (Some M) Weight = Ok (Some (MJ b r c2 P JW M)).
    Proof.
      intros Hr S. unfold lin_mjp. rewrite (unpack2_ok x _ _ Sx). cbn [bind]. unfold size at 1 2. rewrite S. cbn [nth_error bind].
      rewrite Nat.eqb_refl. cbn [check]. erewrite es_bri_bj_to_brij by sh. cbn [bind].
      change (tab [b; r; c2; c1] ?f) with (tab4 b r c2 c1 (fun q i j k => f [q; i; j; k])).
      rewrite reshape_m1_eq with (n := c2 * c1) by (cbn [shape tab4 tab]; numels; nia). cbn [app].
      rewrite merge23_4. cbn [bind].
      unfold MJ. rewrite (tab3_ext b r P _ _ (fun q a p _ _ Hp => lin_col q p (fun i => gt M [q; a; i]) Hp)).
      unfold P, nb in *. destruct bias as [t|] eqn:Eb.
      - erewrite cat2_3; [|reflexivity|exact S]. cbn [some bind]. do 2 f_equal.
        apply tab3_ext. intros q a p Hq Ha Hp.
        destruct (Nat.ltb_spec p (c2 * c1)); [|reflexivity]. now rewrite get_tab3 by auto.
      - rewrite Nat.add_0_r in *. do 2 f_equal. apply tab3_ext. intros q a p Hq Ha Hp.
        destruct (Nat.ltb_spec p (c2 * c1)); [|lia]. reflexivity.
    Qed.

    (** *** jvp, jmp *)
    Lemma lin_jvp_in v : shape v = [b; c1] -> lin_jvp W bias x val v Input = Ok (Some (Jv b c2 c1 JX v)).
    Proof. intros S. unfold lin_jvp. erewrite es_kj_bj_to_bk by sh. reflexivity. Qed.
    Lemma lin_jvp_w v : wf v -> shape v = [b; P] -> lin_jvp W bias x val v Weight = Ok (Some (Jv b c2 P JW v)).
    Proof.
      intros Wv S. unfold lin_jvp. rewrite (unpack2_ok x _ _ Sx). cbn [bind]. rewrite lin_val_ok. cbn [bind].
      rewrite size1_y. cbn [bind]. unfold size. rewrite S. cbn [nth_error bind]. rewrite lin_P, Nat.eqb_refl. cbn [check].
      unfold Jv.
      assert (R : forall q i, q < b -> i < c2 ->  bsum P (fun p => nmul (JW q i p) (gt v [q; p])) =
               nadd (bsum c1 (fun j => nmul (gt x [q; j]) (gt v [q; i * c1 + j])))
           (match bias with Some _ => gt v [q; c2 * c1 + i] | None => n0 end)).
      { intros q i Hq Hi. now rewrite lin_row with (f := fun p => gt v [q; p]). }
      rewrite (tab2_ext b c2 _ _ R). clear R.
      unfold P, nb in *. destruct bias as [t|] eqn:Eb.
      - change (c2 * c1) with (0 + c2 * c1) at 1. rewrite slice1_2 with (b := b) (n := c2 * c1 + c2) by (auto; lia). cbn [bind Nat.add].
        rewrite (split1_2 n0) by (try apply wf_tab; reflexivity). cbn [bind].
        erewrite es_bkj_bj_to_bk by sh. cbn [bind].
        unfold slice_from, dim. rewrite S. cbn [nth].
        rewrite slice1_2 with (b := b) (n := c2 * c1 + c2) by (auto; lia). cbn [bind].
        unfold tadd. rewrite bop_same by reflexivity. cbn [some bind]. do 2 f_equal.
        apply tab_ext. intros idx Vi. didx idx Vi. cbn [nth]. rewrite !get_tab2 by auto. f_equal.
        apply bsum_ext. intros j Hj. rewrite get_tab3 by auto. rewrite get_tab2 by (auto; nia). ring.
      - rewrite Nat.add_0_r in *. rewrite (split1_2 n0) by auto. cbn [bind].
        erewrite es_bkj_bj_to_bk by sh. cbn [some bind]. do 2 f_equal.
        apply tab2_ext. intros q i Hq Hi. rewrite (bsum_ext c1 _ (fun j => nmul (gt x [q; j]) (gt v [q; i * c1 + j]))); [ring|].
        intros j Hj. rewrite get_tab3 by auto. ring.
    Qed.
    Lemma lin_jmp_in c M : shape M = [b; c1; c] -> lin_jmp W bias x val (Some M) Input = Ok (Some (JM b c2 c1 c JX M)).
    Proof. intros S. unfold lin_jmp. erewrite es_kj_bji_to_bki by sh. reflexivity. Qed.
    Lemma lin_jmp_w c M : 0 < c -> wf M -> shape M = [b; P; c] ->
      lin_jmp W bias x val (Some M) Weight = Ok (Some (JM b c2 P c JW M)).
    Proof.
      intros Hc WM S. unfold lin_jmp. rewrite (unpack2_ok x _ _ Sx). cbn [bind]. rewrite lin_val_ok. cbn [bind].
      rewrite size1_y. cbn [bind]. unfold size. rewrite S. cbn [nth_error bind]. rewrite lin_P, Nat.eqb_refl. cbn [check].
      unfold JM.
      assert (R : forall q i a, q < b -> i < c2 -> a < c -> bsum P (fun p => nmul (JW q i p) (gt M [q; p; a])) =
               nadd (bsum c1 (fun j => nmul (gt x [q; j]) (gt M [q; i * c1 + j; a])))
           (match bias with Some _ => gt M [q; c2 * c1 + i; a] | None => n0 end)).
      { intros q i a Hq Hi Ha. now rewrite lin_row with (f := fun p => gt M [q; p; a]). }
      rewrite (tab3_ext b c2 c _ _ R). clear R.
      unfold P, nb in *. destruct bias as [t|] eqn:Eb.
      - change (c2 * c1) with (0 + c2 * c1) at 1. rewrite slice1_3 with (b := b) (n := c2 * c1 + c2) (p := c) by (auto; lia). cbn [bind Nat.add].
        rewrite reshape_m1_eq with (n := c) by (cbn [shape tab3 tab]; numels; nia). cbn [app].
        rewrite (split1_3 n0) by (try apply wf_tab; reflexivity). cbn [bind].
        erewrite es_bkji_bj_to_bki by sh. cbn [bind].
        unfold slice_from, dim. rewrite S. cbn [nth].
        rewrite slice1_3 with (b := b) (n := c2 * c1 + c2) (p := c) by (auto; lia). cbn [bind].
        unfold tadd. rewrite bop_same by reflexivity. cbn [some bind]. do 2 f_equal.
        apply tab_ext. intros idx Vi. didx idx Vi. cbn [nth]. rewrite !get_tab3 by auto. f_equal.
        apply bsum_ext. intros j Hj. rewrite get_tab4 by auto. rewrite get_tab3 by (auto; nia). ring.
      - rewrite Nat.add_0_r in *.
        rewrite reshape_m1_eq with (n := c) by (rewrite ?S; numels; nia). cbn [app].
        rewrite (split1_3 n0) by auto. cbn [bind].
        erewrite es_bkji_bj_to_bki by sh. cbn [some bind]. do 2 f_equal.
        apply tab3_ext. intros q i a Hq Hi Ha.
        rewrite (bsum_ext c1 _ (fun j => nmul (gt x [q; j]) (gt M [q; i * c1 + j; a]))); [ring|].
        intros j Hj. rewrite get_tab4 by auto. ring.
    Qed.

    (** *** jTmjp *)
    Lemma lin_jTmjp_in fd td db M : shape M = metric_shape fd b c2 ->
      lin_jTmjp W bias x val (Some M) Input fd td db = Ok (Some (pull b c2 c1 JX fd td M)).
    Proof.
      intros S. unfold lin_jTmjp. rewrite lin_val_ok. cbn [bind].
      destruct fd, td; cbn [metric_shape] in S.
      - erewrite es_nm_bn_nm_to_bm by sh. cbn [some bind]. do 2 f_equal. apply tab2_ext. intros. now rewrite pull_at_diag.
      - erewrite es_nm_bn_nk_to_bmk by sh. cbn [some bind]. do 2 f_equal. apply tab3_ext. intros. now rewrite pull_at_diag.
      - erewrite es_nm_bnj_jm_to_bm by sh. reflexivity.
      - erewrite es_nm_bnj_jk_to_bmk by sh. reflexivity.
    Qed.
    Lemma lin_jTmjp_full_ok val' M : shape M = [b; c2; c2] ->
      lin_jTmjp_full W bias x val' M = Ok (pull b c2 P JW false false M).
    Proof.
      intros S. unfold lin_jTmjp_full. rewrite transpose12_ok with (b := b) (n := c2) (m := c2) by auto. cbn [bind].
      rewrite lin_mjp_w with (r := c2) by auto. cbn [bind need].
      rewrite transpose12_ok with (b := b) (n := c2) (m := P) by auto. cbn [bind].
      rewrite lin_mjp_w with (r := P) by (auto; unfold P; nia). cbn [bind need]. f_equal.
      apply tab3_ext. intros q p l Hq Hp Hl. unfold pull_at.
      rewrite bsum_swap. apply bsum_ext. intros i Hi. rewrite get_tab3 by auto. unfold MJ. rewrite get_tab3 by auto.
      rewrite <- bsum_mul_r. apply bsum_ext. intros k Hk. rewrite get_tab3 by auto. cbn [metric]. ring.
    Qed.
    Lemma sq_ok (t : T) n : shape t = [b; n] -> tmul t t = Ok (tab2 b n (fun q i => nmul (gt t [q; i]) (gt t [q; i]))).
    Proof.
      intros S. unfold tmul. rewrite bop_same by auto. rewrite S. reflexivity.
    Qed.
    Lemma lin_jTmjp_w fd td db M : shape M = metric_shape fd b c2 ->
      lin_jTmjp W bias x val (Some M) Weight fd td db = Ok (Some (pull b c2 P JW fd td M)).
    Proof.
      intros S. unfold lin_jTmjp. rewrite lin_val_ok. cbn [bind].
      assert (R : pull b c2 P JW fd td M = present td b P (fun q j l =>
         let f p (g : nat -> K) := if p <? c2 * c1 then nmul (g (p / c1)) (gt x [q; p mod c1]) else g (p - c2 * c1) in
         f j (fun i => f l (fun k => metric fd M q i k)))).
      { apply present_ext. intros. now rewrite lin_pull. }
      destruct fd, td; cbn [metric_shape] in S.
      - rewrite R. unfold lin_jTmjp_dd. rewrite (unpack2_ok M _ _ S). cbn [bind].
        rewrite (sq_ok x c1 Sx). cbn [bind]. erewrite es_bj_bi_to_bij by sh. cbn [bind].
        rewrite reshape_m1_eq with (n := c2 * c1) by (cbn [shape tab3 tab]; numels; nia). cbn [app].
        rewrite merge12_3. cbn [bind present]. unfold P, nb in *. destruct bias.
        + erewrite cat1_2; [|reflexivity|exact S]. cbn [some bind]. do 2 f_equal. apply tab2_ext. intros q p Hq Hp.
          cbv zeta. unfold metric. rewrite !Nat.eqb_refl. destruct (Nat.ltb_spec p (c2 * c1)) as [L|L]; [|reflexivity].
          destruct (divmod_lt p c2 c1 L) as (? & ? & _). rewrite get_tab2 by auto. rewrite get_tab2 by auto. ring.
        + rewrite Nat.add_0_r. cbn [some bind]. do 2 f_equal. apply tab2_ext. intros q p Hq Hp.
          cbv zeta. unfold metric. rewrite !Nat.eqb_refl. destruct (Nat.ltb_spec p (c2 * c1)) as [L|L]; [|lia].
          destruct (divmod_lt p c2 c1 L) as (? & ? & _). rewrite get_tab2 by auto. ring.
      - rewrite R. unfold lin_jTmjp_df. rewrite (unpack2_ok x _ _ Sx). cbn [bind].
        unfold size. rewrite S. cbn [nth_error bind]. erewrite es_bi_bj_to_bij by sh. cbn [bind].
        rewrite diag_embed2 with (b := b) (n := c2) by auto. cbn [bind].
        erewrite es_bij_bkq_to_bkiqj by sh. cbn [bind].
        rewrite (Nat.mul_comm c1 c2). unfold tab5. rewrite merge12_34_5. cbn [bind nth].
        unfold P, nb in *. destruct bias.
        + erewrite es_bi_bjk_to_bjik by sh. cbn [bind]. rewrite merge12_4. cbn [bind].
          erewrite cat2_3; [|reflexivity|reflexivity]. cbn [bind].
          rewrite transpose12_ok with (b := b) (n := c2 * c1) (m := c2) by reflexivity. cbn [bind].
          erewrite cat2_3; [|reflexivity|reflexivity]. cbn [bind].
          erewrite cat1_3; [|reflexivity|reflexivity]. cbn [some bind present]. do 2 f_equal.
          apply tab3_ext. intros q p l Hq Hp Hl. cbv zeta. unfold metric.
          destruct (Nat.ltb_spec p (c2 * c1)) as [L|L]; destruct (Nat.ltb_spec l (c2 * c1)) as [L'|L'];
            rewrite get_tab3 by lia;
            [destruct (Nat.ltb_spec l (c2 * c1)); [|lia]|destruct (Nat.ltb_spec l (c2 * c1)); [lia|]
            |destruct (Nat.ltb_spec l (c2 * c1)); [|lia]|destruct (Nat.ltb_spec l (c2 * c1)); [lia|]];
            try (destruct (divmod_lt p c2 c1 L) as (? & ? & _)); try (destruct (divmod_lt l c2 c1 L') as (? & ? & _)).
          * rewrite get_tab3, get_tab3, get_tab3 by auto. destruct (Nat.eqb (p / c1) (l / c1)); ring.
          * rewrite get_tab3, get_tab3 by (auto; lia). destruct Nat.eqb; ring.
          * rewrite get_tab3, get_tab3, get_tab3 by (auto; lia).
            rewrite (Nat.eqb_sym (l / c1)). destruct (Nat.eqb_spec (p - c2 * c1) (l / c1)) as [->|]; ring.
          * rewrite get_tab3 by (auto; lia). reflexivity.
        + rewrite Nat.add_0_r. cbn [some bind present]. do 2 f_equal.
          apply tab3_ext. intros q p l Hq Hp Hl. cbv zeta. unfold metric.
          destruct (Nat.ltb_spec p (c2 * c1)) as [L|L]; [|lia]; destruct (Nat.ltb_spec l (c2 * c1)) as [L'|L']; [|lia].
          destruct (divmod_lt p c2 c1 L) as (? & ? & _); destruct (divmod_lt l c2 c1 L') as (? & ? & _).
          rewrite get_tab3, get_tab3 by auto. destruct (Nat.eqb (p / c1) (l / c1)); ring.
      - rewrite R. unfold lin_jTmjp_fd. unfold unpack3. rewrite S. cbn [bind].
        rewrite (sq_ok x c1 Sx). cbn [bind]. erewrite es_bj_bii_to_bij by sh. cbn [bind].
        rewrite reshape_m1_eq with (n := c2 * c1) by (cbn [shape tab3 tab]; numels; nia). cbn [app].
        rewrite merge12_3. cbn [bind present]. unfold P, nb in *. destruct bias.
        + erewrite es_bii_to_bi by sh. cbn [bind].
          erewrite cat1_2; [|reflexivity|reflexivity]. cbn [some bind]. do 2 f_equal. apply tab2_ext. intros q p Hq Hp.
          cbv zeta. unfold metric. destruct (Nat.ltb_spec p (c2 * c1)) as [L|L].
          * destruct (divmod_lt p c2 c1 L) as (? & ? & _). rewrite get_tab2 by auto. rewrite get_tab2 by auto. ring.
          * rewrite get_tab2 by (auto; lia). reflexivity.
        + rewrite Nat.add_0_r. cbn [some bind]. do 2 f_equal. apply tab2_ext. intros q p Hq Hp.
          cbv zeta. unfold metric. destruct (Nat.ltb_spec p (c2 * c1)) as [L|L]; [|lia].
          destruct (divmod_lt p c2 c1 L) as (? & ? & _). rewrite get_tab2 by auto. ring.
      - rewrite lin_jTmjp_full_ok by auto. reflexivity.
    Qed.

    (** *** jmjTp *)
    Lemma lin_jmjTp_in fd td db M : shape M = metric_shape fd b c1 ->
      lin_jmjTp W bias x val (Some M) Input fd td db = Ok (Some (push b c2 c1 JX fd td M)).
    Proof.
      intros S. unfold lin_jmjTp. rewrite lin_val_ok. cbn [bind].
      destruct fd, td; cbn [metric_shape] in S.
      - erewrite es_mn_bn_mn_to_bm by sh. cbn [some bind]. do 2 f_equal. apply tab2_ext. intros. now rewrite push_at_diag.
      - erewrite es_mn_bn_kn_to_bmk by sh. cbn [some bind]. do 2 f_equal. apply tab3_ext. intros. now rewrite push_at_diag.
      - erewrite es_mn_bnj_mj_to_bm by sh. reflexivity.
      - erewrite es_mn_bnj_kj_to_bmk by sh. reflexivity.
    Qed.
    Definition lin_pd (M : T) q i : K :=
      nadd (bsum c1 (fun j => nmul (nmul (gt x [q; j]) (gt x [q; j])) (gt M [q; i * c1 + j])))
           (match bias with Some _ => gt M [q; c2 * c1 + i] | None => n0 end).
    Lemma lin_push_diag M q i k : i < c2 -> k < c2 ->
      push_at P JW (metric true M) q i k = if Nat.eqb i k then lin_pd M q i else n0.
    Proof.
      intros Hi Hk. rewrite push_at_diag.
      rewrite (bsum_ext P _ (fun p => nmul (JW q i p) (nmul (gt M [q; p]) (JW q k p)))) by (intros; ring).
      rewrite lin_row by auto.
      assert (E : forall j, j < c1 -> JW q k (i * c1 + j) = nmul (delta k i) (gt x [q; j])).
      { intros j Hj. unfold JW, lin_JW. destruct (Nat.ltb_spec (i * c1 + j) (c2 * c1)); [|nia].
        now destruct (divmod_flat c1 i j Hj) as [-> ->]. }
      assert (E' : JW q k (c2 * c1 + i) = delta k i).
      { unfold JW, lin_JW. destruct (Nat.ltb_spec (c2 * c1 + i) (c2 * c1)); [lia|]. f_equal. lia. }
      rewrite E'. rewrite (bsum_ext c1 _ (fun j => nmul (delta k i) (nmul (nmul (gt x [q; j]) (gt x [q; j])) (gt M [q; i * c1 + j]))))
        by (intros j Hj; rewrite E by auto; ring).
      rewrite bsum_mul_l. unfold lin_pd. rewrite (delta_sym k i). unfold delta.
      destruct bias, (Nat.eqb i k); ring.
    Qed.
    Lemma lin_jmjTp_diag_ok val' M : wf M -> shape M = [b; P] -> shape val' = [b; c2] ->
      lin_jmjTp_diag bias x val' M = Ok (tab2 b c2 (lin_pd M)).
    Proof.
      intros WM S Sv. unfold lin_jmjTp_diag. rewrite (unpack2_ok M _ _ S). cbn [bind].
      unfold size. rewrite Sx, Sv. cbn [nth_error bind]. rewrite (sq_ok x c1 Sx). cbn [bind].
      unfold lin_pd, P, nb in *. destruct bias.
      - change (c2 * c1) with (0 + c2 * c1) at 1. rewrite slice1_2 with (b := b) (n := c2 * c1 + c2) by (auto; lia). cbn [bind Nat.add].
        rewrite (split1_2 n0) by (try apply wf_tab; reflexivity). cbn [bind].
        erewrite es_bi_bji_to_bj by sh. cbn [bind].
        unfold slice_from, dim. rewrite S. cbn [nth].
        rewrite slice1_2 with (b := b) (n := c2 * c1 + c2) by (auto; lia). cbn [bind].
        unfold tadd. rewrite bop_same by reflexivity. f_equal.
        apply tab_ext. intros idx Vi. didx idx Vi. cbn [nth]. rewrite !get_tab2 by auto. f_equal.
        apply bsum_ext. intros j Hj. rewrite get_tab3 by auto. rewrite !get_tab2 by (auto; nia). ring.
      - rewrite Nat.add_0_r in *. rewrite (split1_2 n0) by auto. cbn [bind].
        erewrite es_bi_bji_to_bj by sh. f_equal. apply tab2_ext. intros q i Hq Hi.
        rewrite (bsum_ext c1 _ (fun j => nmul (nmul (gt x [q; j]) (gt x [q; j])) (gt M [q; i * c1 + j]))); [ring|].
        intros j Hj. rewrite get_tab3, get_tab2 by auto. ring.
    Qed.
  End L.

  Section L2.
    Variables (W : T) (bias : option T) (c1 c2 b : nat) (x y : T).
    Hypothesis (SW : shape W = [c2; c1]) (WW : wf W) (BO : bias_ok bias c2).
    Hypothesis (Hc1 : 0 < c1) (Hc2 : 0 < c2) (Hb : 0 < b) (Wx : wf x) (Sx : shape x = [b; c1]).
    Hypothesis (Fy : lin_forward W bias x = Ok y).
    Let P := c2 * c1 + match bias with Some _ => c2 | None => 0 end.
    Lemma lin_jmjTp_full_ok M : wf M -> shape M = [b; P; P] ->
      lin_jmjTp_full W bias x y M = Ok (push b c2 P (lin_JW c1 c2 x) false false M).
    Proof.
      intros WM S. unfold lin_jmjTp_full. rewrite transpose12_ok with (b := b) (n := P) (m := P) by auto. cbn [bind].
      assert (HP : 0 < P) by (unfold P; nia).
      erewrite lin_jmp_w with (b := b) (c1 := c1) (c2 := c2) (c := P) (y := y) by (eauto using wf_tab; reflexivity). cbn [bind need].
      rewrite transpose12_ok with (b := b) (n := c2) (m := P) by auto. cbn [bind].
      erewrite lin_jmp_w with (b := b) (c1 := c1) (c2 := c2) (c := c2) (y := y) by (eauto using wf_tab; reflexivity). cbn [bind need]. f_equal.
      apply tab3_ext. intros q i k Hq Hi Hk. unfold push_at. fold P.
      apply bsum_ext. intros p Hp. rewrite get_tab3 by auto. unfold JM. rewrite get_tab3 by auto.
      rewrite <- bsum_mul_l. apply bsum_ext. intros l Hl. rewrite get_tab3 by auto. cbn [metric]. ring.
    Qed.
    Lemma lin_jmjTp_w val fd td db M : val = None \/ val = Some y -> wf M -> shape M = metric_shape fd b P ->
      lin_jmjTp W bias x val (Some M) Weight fd td db = Ok (Some (push b c2 P (lin_JW c1 c2 x) fd td M)).
    Proof.
      intros V WM S. unfold lin_jmjTp. erewrite lin_val_ok by eauto. cbn [bind].
      assert (Sy : shape y = [b; c2]) by (eapply lin_y; eauto).
      assert (R : forall q i k, i < c2 -> k < c2 ->
         push_at P (lin_JW c1 c2 x) (metric true M) q i k = if Nat.eqb i k then lin_pd bias c1 c2 x M q i else n0).
      { intros. eapply lin_push_diag; eauto. }
      destruct fd, td; cbn [metric_shape] in S.
      - rewrite lin_jmjTp_diag_ok with (W := W) (b := b) (c1 := c1) (c2 := c2) (y := y) by auto. cbn [some bind]. do 2 f_equal. apply tab2_ext. intros.
        rewrite R by auto. now rewrite Nat.eqb_refl.
      - rewrite lin_jmjTp_diag_ok with (W := W) (b := b) (c1 := c1) (c2 := c2) (y := y) by auto. cbn [bind]. rewrite diag_embed2 with (b := b) (n := c2) by reflexivity.
        cbn [some bind]. do 2 f_equal. apply tab3_ext. intros. rewrite R by auto. now rewrite get_tab2.
      - rewrite lin_jmjTp_full_ok by auto. cbn [bind]. erewrite es_bii_to_bi_blank by sh. cbn [some bind]. do 2 f_equal.
        apply tab2_ext. intros. unfold push, present. now rewrite get_tab3.
      - rewrite lin_jmjTp_full_ok by auto. reflexivity.
    Qed.
  End L2.

  Lemma linear_spec W bias s s' : let l := Linear W bias in leaf_typed l s s' ->
    leaf_fwd_spec l s s' /\ leaf_jac_spec l s s' /\ leaf_vjp_spec l s s' /\
    leaf_mjp_spec l s s' /\ leaf_pull_spec l s s' /\ leaf_jvp_spec l s s' /\
    leaf_jmp_spec l s s' /\ leaf_push_spec l s s'.
  Proof.
    intros l (N & N' & Ty). destruct s as [|c1 [|? ?]]; try contradiction. destruct s' as [|c2 [|? ?]]; try contradiction.
    destruct Ty as (SW & WW & BO). numels. assert (H1 : 0 < c1) by lia. assert (H2 : 0 < c2) by lia.
    assert (NP : leaf_n_params l = c2 * c1 + match bias with Some _ => c2 | None => 0 end).
    { cbn. unfold lin_n_params. rewrite SW. destruct bias as [t|]; numels; [|lia]. destruct BO as [-> _]. numels. lia. }
    assert (WO : forall A (t : A), wopt (leaf_n_params l) t = Some t).
    { intros. unfold wopt. rewrite NP. destruct (Nat.eqb_spec (c2 * c1 + match bias with Some _ => c2 | None => 0 end) 0); [nia|auto]. }
    assert (JWe : forall x, leaf_JW l x = lin_JW c1 c2 x).
    { intros. cbn. unfold dim. now rewrite SW. }
    assert (E1 : numel [c1] = c1) by (numels; lia). assert (E2 : numel [c2] = c2) by (numels; lia).
    repeat match goal with |- _ /\ _ => split end; unfold leaf_jac_spec, leaf_vjp_spec, leaf_mjp_spec, leaf_pull_spec,
      leaf_jvp_spec, leaf_jmp_spec, leaf_push_spec, with_val; rewrite ?E1, ?E2.
    - intros b x Hb Wx Sx. cbn [leaf_forward]. eexists. split; [now (eapply lin_fwd_ok; eauto)|]. split; [apply wf_tab|reflexivity].
    - intros b x y val Hb Wx Sx Fy V. cbn [leaf_jacobian]. rewrite WO, NP, JWe. split.
      + now (eapply lin_jac_in; eauto).
      + now (eapply lin_jac_w; eauto).
    - intros b x y val Hb Wx Sx Fy V v Wv Sv. cbn [leaf_vjp]. rewrite WO, NP, JWe. split.
      + now (eapply lin_vjp_in; eauto).
      + now (eapply lin_vjp_w; eauto).
    - intros b x y val Hb Wx Sx Fy V r M Hr WM SM. cbn [leaf_mjp]. rewrite WO, NP, JWe. split.
      + now (eapply lin_mjp_in; eauto).
      + now (eapply lin_mjp_w; eauto).
    - intros b x y val Hb Wx Sx Fy V fd td db M F WM SM. cbn [leaf_jTmjp]. rewrite WO, NP, JWe. split.
      + now (eapply lin_jTmjp_in; eauto).
      + now (eapply lin_jTmjp_w; eauto).
    - intros b x y val Hb Wx Sx Fy V. cbn [leaf_jvp]. split; intros v Wv Sv; rewrite ?WO, ?NP, ?JWe in *.
      + now (eapply lin_jvp_in; eauto).
      + now (eapply lin_jvp_w; eauto).
    - intros b x y val Hb Wx Sx Fy V c Hc. cbn [leaf_jmp]. split; intros M WM SM; rewrite ?WO, ?NP, ?JWe in *.
      + now (eapply lin_jmp_in; eauto).
      + now (eapply lin_jmp_w; eauto).
    - intros b x y val Hb Wx Sx Fy V fd td db F. cbn [leaf_jmjTp]. split; intros M WM SM; rewrite ?WO, ?NP, ?JWe in *.
      + now (eapply lin_jmjTp_in; eauto).
      + now (eapply lin_jmjTp_w; eauto).
  Qed.
End Lin.
