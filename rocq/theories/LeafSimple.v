(** Products of the element-wise layers, Flatten, Reshape, L2Norm and user-defined layers. *)
From Coq Require Import String Ascii List Arith ZArith Lia Bool.
From Verif Require Import Scalar Sums Tensor TensorLemmas EinsumLemmas Conv Abstract Simple LinearLayer ConvLayer PoolLayer
  Module Spec OpLemmas Jac LeafSpec.
Import ListNotations.
Local Open Scope nat_scope.
Local Open Scope list_scope.

Ltac sh := first [eassumption | reflexivity].

Section Simple.
  Context {K} `{CR : CRing K}.
  Add Ring Kring : (cring : ring_theory n0 n1 nadd nmul nsub nopp (@eq K)).
  Notation gt := (get (@n0 K _)).
  Notation T := (tensor K).
  Notation J3 := (nat -> nat -> nat -> K).

  (** *** products from a dense jacobian: AbstractJacobian *)
  Section Dense.
    Variables (jac : T -> option T -> wrt -> res (option T)) (x : T) (val : option T) (w : wrt).
    Variables (b m n : nat) (J : T).
    Hypothesis HJ : jac x val w = Ok (Some J).
    Hypothesis SJ : shape J = [b; m; n].
    Let Jf : J3 := fun q i j => gt J [q; i; j].

    Lemma aj_jvp_ok v : shape v = [b; n] -> aj_jvp jac x val v w = Ok (Some (Jv b m n Jf v)).
    Proof. intros S. unfold aj_jvp. rewrite HJ. cbn [bind]. erewrite es_bij_bj_to_bi by sh. reflexivity. Qed.
    Lemma aj_vjp_ok v : shape v = [b; m] -> aj_vjp jac x val v w = Ok (Some (vJ b m n Jf v)).
    Proof. intros S. unfold aj_vjp. rewrite HJ. cbn [bind]. erewrite es_bi_bij_to_bj by sh. reflexivity. Qed.
    Lemma aj_jmp_ok c M : shape M = [b; n; c] -> aj_jmp jac x val (Some M) w = Ok (Some (JM b m n c Jf M)).
    Proof. intros S. unfold aj_jmp. rewrite HJ. cbn [bind need]. erewrite es_bij_bjk_to_bik by sh. reflexivity. Qed.
    Lemma aj_mjp_ok r M : shape M = [b; r; m] -> aj_mjp jac x val (Some M) w = Ok (Some (MJ b r m n Jf M)).
    Proof. intros S. unfold aj_mjp. rewrite HJ. cbn [bind need]. erewrite es_bij_bjk_to_bik by sh. reflexivity. Qed.
    Lemma aj_jmjTp_ok fd td db M : flags_ok fd td db -> shape M = metric_shape fd b n ->
      aj_jmjTp jac x val (Some M) w fd td db = Ok (Some (push b m n Jf fd td M)).
    Proof.
      intros F S. unfold aj_jmjTp.
      replace (if db then (true, true) else (fd, td)) with (fd, td)
        by (destruct db; [destruct F as [-> ->]|]; reflexivity).
      rewrite HJ. cbn [bind need].
      destruct fd, td; cbn [metric_shape] in S; cbn [some bind].
      - erewrite es_bij_bj_bij_to_bi by sh. cbn. do 2 f_equal. apply tab2_ext. intros q i Hq Hi.
        now rewrite push_at_diag.
      - erewrite es_bij_bj_blj_to_bil by sh. cbn. do 2 f_equal. apply tab3_ext. intros q i k Hq Hi Hk.
        now rewrite push_at_diag.
      - erewrite es_bij_bjk_bik_to_bi by sh. reflexivity.
      - erewrite es_bij_bjk_blk_to_bil by sh. reflexivity.
    Qed.
    Lemma aj_jTmjp_full M : shape M = [b; m; m] ->
      aj_jTmjp jac x val (Some M) w false false false = Ok (Some (pull b m n Jf false false M)).
    Proof.
      intros S. unfold aj_jTmjp. rewrite HJ. cbn [bind need some].
      erewrite es_bji_bjk_bkl_to_bil by sh. reflexivity.
    Qed.
  End Dense.

  Lemma aj_jTmjp_sym (jac : T -> option T -> wrt -> res (option T)) x val w b n J :
    jac x val w = Ok (Some J) -> shape J = [b; n; n] ->
    (forall q i j, q < b -> i < n -> j < n -> gt J [q; i; j] = gt J [q; j; i]) ->
    forall fd td db M, flags_ok fd td db -> shape M = metric_shape fd b n ->
      aj_jTmjp jac x val (Some M) w fd td db =
      Ok (Some (pull b n n (fun q i j => gt J [q; i; j]) fd td M)).
  Proof.
    intros HJ SJ Sy fd td db M F S. unfold aj_jTmjp.
    replace (if db then (true, true) else (fd, td)) with (fd, td)
      by (destruct db; [destruct F as [-> ->]|]; reflexivity).
    rewrite HJ. cbn [bind need].
    destruct fd, td; cbn [metric_shape] in S; cbn [some bind].
    - erewrite es_bij_bj_bji_to_bi by sh. cbn. do 2 f_equal. apply tab2_ext. intros q i Hq Hi.
      rewrite pull_at_diag. apply bsum_ext. intros k Hk. now rewrite (Sy q i k).
    - erewrite es_bij_bj_bjl_to_bil by sh. cbn. do 2 f_equal. apply tab3_ext. intros q i l Hq Hi Hl.
      rewrite pull_at_diag. apply bsum_ext. intros k Hk. now rewrite (Sy q i k).
    - erewrite es_bij_bjk_bki_to_bi by sh. cbn. do 2 f_equal. apply tab2_ext. intros q i Hq Hi.
      unfold pull_at. apply bsum_ext. intros k Hk. apply bsum_ext. intros l Hl. now rewrite (Sy q i k).
    - erewrite es_bji_bjk_bkl_to_bil by sh. reflexivity.
  Qed.

  (** *** products from a diagonal: AbstractDiagonalJacobian *)
  Section Diag.
    Variables (jac : T -> option T -> wrt -> bool -> res (option T)) (fw : T -> res T).
    Variables (x y : T) (val : option T) (w : wrt).
    Variables (b n : nat) (s : list nat) (D : T).
    Hypothesis HJ : jac x val w true = Ok (Some D).
    Hypothesis HJy : jac x (Some y) w true = Ok (Some D).
    Hypothesis SD : shape D = [b; n].
    Hypothesis WD : wf D.
    Hypothesis SX : shape x = b :: s.
    Hypothesis Hval : val = None /\ fw x = Ok y \/ val = Some y.
    Let Jf : J3 := fun q i j => nmul (delta i j) (gt D [q; i]).

    Lemma diag_row q i (f : nat -> K) : i < n ->
      bsum n (fun j => nmul (Jf q i j) (f j)) = nmul (gt D [q; i]) (f i).
    Proof.
      intros Hi. rewrite (bsum_single n i) by (auto; intros k _ N; unfold Jf; rewrite delta_neq by auto; ring).
      unfold Jf. rewrite delta_refl. ring.
    Qed.
    Lemma diag_col q j (f : nat -> K) : j < n ->
      bsum n (fun i => nmul (f i) (Jf q i j)) = nmul (f j) (gt D [q; j]).
    Proof.
      intros Hj. rewrite (bsum_single n j) by (auto; intros k _ N; unfold Jf; rewrite delta_neq by auto; ring).
      unfold Jf. rewrite delta_refl. ring.
    Qed.
    Lemma diag_pull q j l M : j < n -> l < n ->
      pull_at n Jf M q j l = nmul (nmul (gt D [q; j]) (M q j l)) (gt D [q; l]).
    Proof.
      intros Hj Hl. unfold pull_at.
      rewrite (bsum_ext n _ (fun i => nmul (nmul (Jf q i j) (M q i l)) (gt D [q; l]))).
      2:{ intros i Hi. apply diag_col with (f := fun k => nmul (Jf q i j) (M q i k)); auto. }
      rewrite bsum_mul_r. f_equal.
      rewrite (bsum_ext n _ (fun i => nmul (M q i l) (Jf q i j))) by (intros; ring).
      rewrite diag_col by auto. ring.
    Qed.
    Lemma diag_push q j l M : j < n -> l < n ->
      push_at n Jf M q j l = nmul (nmul (gt D [q; j]) (M q j l)) (gt D [q; l]).
    Proof.
      intros Hj Hl. unfold push_at.
      rewrite (bsum_ext n _ (fun i => nmul (nmul (Jf q j i) (M q i l)) (gt D [q; l]))).
      2:{ intros i Hi. rewrite (bsum_ext n _ (fun k => nmul (Jf q l k) (nmul (Jf q j i) (M q i k)))) by (intros; ring).
          rewrite diag_row by auto. ring. }
      rewrite bsum_mul_r. f_equal.
      now rewrite diag_row by auto.
    Qed.

    Lemma ad_jvp_ok v : shape v = [b; n] -> ad_jvp jac x val v w = Ok (Some (Jv b n n Jf v)).
    Proof.
      intros S. unfold ad_jvp. rewrite HJ. cbn [bind]. erewrite es_bj_bj_to_bj by sh. cbn. do 2 f_equal.
      apply tab2_ext. intros q i Hq Hi. now rewrite diag_row.
    Qed.
    Lemma ad_vjp_ok v : shape v = [b; n] -> ad_vjp jac x val v w = Ok (Some (vJ b n n Jf v)).
    Proof.
      intros S. unfold ad_vjp. rewrite HJ. cbn [bind]. erewrite es_bi_bi_to_bi by sh. cbn. do 2 f_equal.
      apply tab2_ext. intros q i Hq Hi. now rewrite diag_col.
    Qed.
    Lemma ad_jmp_ok c M : shape M = [b; n; c] -> ad_jmp jac x val (Some M) w = Ok (Some (JM b n n c Jf M)).
    Proof.
      intros S. unfold ad_jmp. rewrite HJ. cbn [bind]. unfold einsum_bi_bidots. rewrite SD, S.
      rewrite shape_eqb_refl. cbn [some bind]. do 2 f_equal. apply tab_ext. intros idx V. didx idx V.
      cbn [nth]. now rewrite diag_row.
    Qed.
    Lemma ad_mjp_ok r M : shape M = [b; r; n] -> ad_mjp jac x val (Some M) w = Ok (Some (MJ b r n n Jf M)).
    Proof.
      intros S. unfold ad_mjp. rewrite HJ. cbn [bind]. erewrite es_bij_bj_to_bij by sh. cbn. do 2 f_equal.
      apply tab3_ext. intros q a i Hq Ha Hi. now rewrite diag_col.
    Qed.
    Lemma ad_modes_ok fd td M (R : bool -> nat -> nat -> nat -> K) : shape M = metric_shape fd b n ->
      (forall q j l, q < b -> j < n -> l < n ->
         R fd q j l = nmul (nmul (gt D [q; j]) (metric fd M q j l)) (gt D [q; l])) ->
      ad_modes D M fd td = Ok (Some (present td b n (R fd))).
    Proof.
      intros S E. unfold ad_modes.
      assert (Q : forall q i, q < b -> i < n -> gt (sq D) [q; i] = nmul (gt D [q; i]) (gt D [q; i])).
      { intros q i Hq Hi. unfold sq. rewrite get_emap; auto. rewrite SD. cbn. auto. }
      destruct fd, td; cbn [metric_shape] in S; cbn [some bind].
      - erewrite es_bi_bi_to_bi by (first [exact SD | sh]). cbn [some bind]. do 2 f_equal. apply tab2_ext. intros q i Hq Hi.
        rewrite E, Q by auto. unfold metric. rewrite Nat.eqb_refl. ring.
      - erewrite es_bi_bi_to_bi by (first [exact SD | sh]). cbn [bind]. rewrite diag_embed2 with (b := b) (n := n) by reflexivity.
        cbn [some bind]. do 2 f_equal. apply tab3_ext. intros q i k Hq Hi Hk. rewrite get_tab2, E, Q by auto.
        unfold metric. destruct (Nat.eqb_spec i k) as [->|]; ring.
      - erewrite es_bi_bii_bi_to_bi by sh. cbn [some bind]. do 2 f_equal. apply tab2_ext. intros q i Hq Hi.
        rewrite E by auto. reflexivity.
      - erewrite es_bi_bik_bk_to_bik by sh. cbn [some bind]. do 2 f_equal. apply tab3_ext. intros q i k Hq Hi Hk.
        rewrite E by auto. reflexivity.
    Qed.
    Lemma val_y : (match val with Some v => Ok v | None => fw x end) = Ok y.
    Proof. now destruct Hval as [[-> ->] | ->]. Qed.
    Lemma size0_x : size 0 x = Ok b.
    Proof. unfold size. now rewrite SX. Qed.
    Lemma ad_jmjTp_ok fd td db M : shape M = metric_shape fd b n ->
      ad_jmjTp jac fw x val (Some M) w fd td db = Ok (Some (push b n n Jf fd td M)).
    Proof.
      intros S. unfold ad_jmjTp. rewrite size0_x. cbn [bind]. rewrite val_y. cbn [bind]. rewrite HJy. cbn [bind].
      unfold push. apply ad_modes_ok with (R := fun fd => push_at n Jf (metric fd M)); auto.
      intros. now apply diag_push.
    Qed.
    Lemma ad_jTmjp_ok fd td db M : shape M = metric_shape fd b n ->
      ad_jTmjp jac fw x val (Some M) w fd td db = Ok (Some (pull b n n Jf fd td M)).
    Proof.
      intros S. unfold ad_jTmjp. rewrite size0_x. cbn [bind]. rewrite val_y. cbn [bind]. rewrite HJy. cbn [bind].
      unfold pull. apply ad_modes_ok with (R := fun fd => pull_at n Jf (metric fd M)); auto.
      intros. now apply diag_pull.
    Qed.
  End Diag.
End Simple.
