(** The products of AbstractDiagonalJacobian against the dense matrix its jacobian returns (C25). *)
From Coq Require Import List Arith ZArith Lia Bool.
From Verif Require Import Scalar Sums Tensor TensorLemmas EinsumLemmas Conv Abstract Simple Spec SpecQ OpLemmas LeafSpec LeafSimple Module NoneArg.
Import ListNotations.
Local Open Scope nat_scope.
Local Open Scope list_scope.

(** [jac] is the layer's own jacobian method: asked for the diagonal it returns the diagonal [D] of the dense
    matrix [J] it returns otherwise, and [J] is zero off the diagonal *)
Definition diagonal_of {K} `{Num K} (b n : nat) (D J : tensor K) : Prop :=
  wf D /\ shape D = [b; n] /\ wf J /\ shape J = [b; n; n] /\
  forall q i j, q < b -> i < n -> j < n -> get n0 J [q; i; j] = if Nat.eqb i j then get n0 D [q; i] else n0.

Section DiagPath.
  Context {K} `{CR : CRing K}.
  Add Ring Kring : (cring : ring_theory n0 n1 nadd nmul nsub nopp (@eq K)).
  Notation gt := (get (@n0 K _)).
  Notation T := (tensor K).

  Section D.
    Variables (jac : T -> option T -> wrt -> bool -> res (option T)).
    Variables (x : T) (val : option T) (w : wrt) (b n : nat) (D J : T).
    Hypothesis HJ : jac x val w true = Ok (Some D).
    Hypothesis DJ : diagonal_of b n D J.

    Lemma dp_Jeq : Jeq b n n (fun q i j => nmul (delta i j) (gt D [q; i])) (entry J).
    Proof using DJ CR.
      destruct DJ as (_ & _ & _ & _ & E). intros q i j A B C. unfold entry. rewrite E by auto. unfold delta. destruct (i =? j); ring.
    Qed.
    Lemma dp_jvp v : shape v = [b; n] -> ad_jvp jac x val v w = Ok (Some (Jv b n n (entry J) v)).
    Proof using All. intros S. destruct DJ as (_ & SD & _). erewrite ad_jvp_ok by eauto. do 2 f_equal. apply Jv_Jext, dp_Jeq. Qed.
    Lemma dp_vjp v : shape v = [b; n] -> ad_vjp jac x val v w = Ok (Some (vJ b n n (entry J) v)).
    Proof using All. intros S. destruct DJ as (_ & SD & _). erewrite ad_vjp_ok by eauto. do 2 f_equal. apply vJ_Jext, dp_Jeq. Qed.
    Lemma dp_jmp c M : shape M = [b; n; c] -> ad_jmp jac x val (Some M) w = Ok (Some (JM b n n c (entry J) M)).
    Proof using All. intros S. destruct DJ as (_ & SD & _). erewrite ad_jmp_ok by eauto. do 2 f_equal. apply JM_Jext, dp_Jeq. Qed.
    Lemma dp_mjp r M : shape M = [b; r; n] -> ad_mjp jac x val (Some M) w = Ok (Some (MJ b r n n (entry J) M)).
    Proof using All. intros S. destruct DJ as (_ & SD & _). erewrite ad_mjp_ok by eauto. do 2 f_equal. apply MJ_Jext, dp_Jeq. Qed.
  End D.
  Section E.
    Variables (jac : T -> option T -> wrt -> bool -> res (option T)) (fw : T -> res T).
    Variables (x y : T) (val : option T) (w : wrt) (b : nat) (s : list nat) (D J : T).
    Hypothesis HJ : jac x (Some y) w true = Ok (Some D).
    Hypothesis DJ : diagonal_of b (numel s) D J.
    Hypothesis Hb : 0 < b.
    Hypothesis Sx : shape x = b :: s.
    Hypothesis Hval : val = None /\ fw x = Ok y \/ val = Some y.
    Lemma ad_pull fd td db M : shape M = metric_shape fd b (numel s) ->
      ad_jTmjp jac fw x val (Some M) w fd td db = Ok (Some (pull b (numel s) (numel s) (entry J) fd td M)).
    Proof using All.
      intros S. destruct DJ as (WD & SD & _).
      assert (V : ad_jTmjp jac fw x val (Some M) w fd td db = ad_jTmjp jac fw x (Some y) (Some M) w fd td db).
      { unfold ad_jTmjp. now destruct Hval as [[-> ->] | ->]. }
      rewrite V, (ad_jTmjp_ok jac fw x y (Some y) w b (numel s) s D HJ HJ SD WD Sx (or_intror eq_refl)) by auto.
      do 2 f_equal. apply pull_Jext. eapply dp_Jeq; eauto.
    Qed.
    Lemma ad_push fd td db M : shape M = metric_shape fd b (numel s) ->
      ad_jmjTp jac fw x val (Some M) w fd td db = Ok (Some (push b (numel s) (numel s) (entry J) fd td M)).
    Proof using All.
      intros S. destruct DJ as (WD & SD & _).
      assert (V : ad_jmjTp jac fw x val (Some M) w fd td db = ad_jmjTp jac fw x (Some y) (Some M) w fd td db).
      { unfold ad_jmjTp. now destruct Hval as [[-> ->] | ->]. }
      rewrite V, (ad_jmjTp_ok jac fw x y (Some y) w b (numel s) s D HJ HJ SD WD Sx (or_intror eq_refl)) by auto.
      do 2 f_equal. apply push_Jext. eapply dp_Jeq; eauto.
    Qed.
    Lemma ad_pull_none fd td db : shape y = b :: s ->
      ad_jTmjp jac fw x val None w fd td db = Ok (Some (pull b (numel s) (numel s) (entry J) true td (identity_metric true b (numel s)))).
    Proof using All.
      intros Sy. rewrite <- (ad_pull true td db _ (id_shape true b (numel s))). unfold ad_jTmjp.
      assert (E : (match val with Some v => Ok v | None => fw x end) = Ok y) by (now destruct Hval as [[-> ->] | ->]).
      assert (Sz : size 0 x = Ok b) by (unfold size; now rewrite Sx). rewrite Sz. cbn [bind]. rewrite E. cbn [bind]. now rewrite (flat_ones b s y Hb Sy).
    Qed.
    Lemma ad_push_none fd td db :
      ad_jmjTp jac fw x val None w fd td db = Ok (Some (push b (numel s) (numel s) (entry J) true td (identity_metric true b (numel s)))).
    Proof using All.
      rewrite <- (ad_push true td db _ (id_shape true b (numel s))). unfold ad_jmjTp.
      assert (E : (match val with Some v => Ok v | None => fw x end) = Ok y) by (now destruct Hval as [[-> ->] | ->]).
      assert (Sz : size 0 x = Ok b) by (unfold size; now rewrite Sx). rewrite Sz. cbn [bind]. rewrite E. cbn [bind]. now rewrite (flat_ones b s x Hb Sx).
    Qed.
  End E.

  (** every activation satisfies the hypothesis, for every value of val *)
  Lemma act_diagonal a b s (x y : T) : 0 < b -> wf x -> shape x = b :: s -> wf y -> shape y = b :: s ->
    exists D J, act_jacobian a x (Some y) Input true = Ok (Some D) /\ act_jacobian a x (Some y) Input false = Ok (Some J) /\
      diagonal_of b (numel s) D J.
  Proof.
    intros Hb Wx Sx Wy Sy. unfold act_jacobian. cbn [bind]. unfold size. rewrite Sy. cbn [nth_error bind].
    assert (Sd : shape (act_deriv a x y) = b :: s) by (destruct a; auto).
    assert (Wd : wf (act_deriv a x y)) by (destruct a; now apply wf_emap).
    rewrite (flat_ok _ b s) by (auto; lia). cbn [bind].
    assert (W : wf (mkT [b; numel s] (data (act_deriv a x y)))).
    { unfold wf in *. rewrite Sd in Wd. cbn [shape data]. rewrite Wd, !numel_cons, numel_nil. lia. }
    rewrite diag_embed2 with (b := b) (n := numel s) by reflexivity. cbn [some bind].
    do 2 eexists. do 2 (split; [reflexivity|]). split; [exact W|]. split; [reflexivity|]. split; [apply wf_tab|]. split; [reflexivity|].
    intros q i j A B C. now rewrite get_tab3 by auto.
  Qed.
End DiagPath.
