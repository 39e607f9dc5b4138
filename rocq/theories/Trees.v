(** The tree theorems with their layer hypotheses discharged, stated with the matrix that jacobian returns. *)
From Coq Require Import String Ascii List Arith ZArith Lia Bool.
From Verif Require Import Scalar Sums Tensor TensorLemmas EinsumLemmas Conv Abstract Simple LinearLayer ConvLayer PoolLayer
  Module Spec OpLemmas ReshapeLemmas Jac LeafSpec LeafSimple TreeBase TreeVjp TreeMjp TreePull TreeJvp TreeJmp TreePush Leaves.
Import ListNotations.
Local Open Scope nat_scope.
Local Open Scope list_scope.

Section Trees.
  Context {K} `{CR : CRing K}.
  Add Ring Kring : (cring : ring_theory n0 n1 nadd nmul nsub nopp (@eq K)).
  Notation gt := (get (@n0 K _)).
  Notation T := (tensor K).

  Lemma fwd_total (m : module K) s s' b x : typed m s s' -> 0 < b -> wf x -> shape x = b :: s ->
    exists y, fwd m x = Ok y /\ wf y /\ shape y = b :: s'.
  Proof. intros. now apply (typed_fwd BF BPF m s s'). Qed.

  Lemma entry_dense b m n J q i j : q < b -> i < m -> j < n -> entry (@dense K b m n J) q i j = J q i j.
  Proof. intros. unfold entry, dense. now rewrite get_tab3. Qed.
  Lemma vJ_dense b m n J v : vJ b m n (entry (@dense K b m n J)) v = vJ b m n J v.
  Proof. apply tab2_ext. intros. apply bsum_ext. intros. now rewrite entry_dense. Qed.
  Lemma MJ_dense b r m n J v : MJ b r m n (entry (@dense K b m n J)) v = MJ b r m n J v.
  Proof. apply tab3_ext. intros. apply bsum_ext. intros. now rewrite entry_dense. Qed.
  Lemma Jv_dense b m n J v : Jv b m n (entry (@dense K b m n J)) v = Jv b m n J v.
  Proof. apply tab2_ext. intros. apply bsum_ext. intros. now rewrite entry_dense. Qed.
  Lemma JM_dense b m n c J v : JM b m n c (entry (@dense K b m n J)) v = JM b m n c J v.
  Proof. apply tab3_ext. intros. apply bsum_ext. intros. now rewrite entry_dense. Qed.
  Lemma pull_at_dense b m n J M q i k : q < b -> i < n -> k < n -> pull_at m (entry (@dense K b m n J)) M q i k = pull_at m J M q i k.
  Proof. intros. apply pull_at_ext; auto; intros; now rewrite entry_dense. Qed.
  Lemma push_at_dense b m n J M q i k : q < b -> i < m -> k < m -> push_at n (entry (@dense K b m n J)) M q i k = push_at n J M q i k.
  Proof. intros. apply push_at_ext; auto; intros; now rewrite entry_dense. Qed.

  Lemma wval_diag b R : forall (m : module K) off, n_params m <> 0 -> wval true b R m off = VT (block true b (n_params m) off R).
  Proof.
    refine (module_ind2 (fun m => forall off, n_params m <> 0 -> wval true b R m off = VT (block true b (n_params m) off R)) (fun _ => True) _ _ _ _ I (fun _ _ _ _ => I)).
    - intros l off Hn. cbn in *. destruct (Nat.eqb_spec (leaf_n_params l) 0); [contradiction|reflexivity].
    - intros cfg off Hn. now destruct Hn.
    - intros h ms _ off Hn. cbn [wval]. destruct (Nat.eqb_spec (n_params (Seq h ms)) 0); [contradiction|reflexivity].
    - intros F IH off Hn. cbn [wval]. now apply IH.
  Qed.

  (** what jTmjp returns can be passed to jmjTp *)
  Lemma wval_rep fd b R : forall (m : module K) off, n_params m <> 0 -> rep fd b R m off (wval fd b R m off).
  Proof.
    refine (module_ind2 (fun m => forall off, n_params m <> 0 -> rep fd b R m off (wval fd b R m off))
      (fun ms => forall off, reps fd b R ms off (wvals (wval fd b R) ms off)) _ _ _ _ _ _).
    - intros l off Hn. cbn in *. destruct (Nat.eqb_spec (leaf_n_params l) 0); [contradiction|constructor].
    - intros cfg off Hn. now destruct Hn.
    - intros h ms IH off Hn. cbn [wval]. destruct (Nat.eqb_spec (n_params (Seq h ms)) 0); [contradiction|].
      destruct fd; [apply rep_whole|apply rep_list, IH].
    - intros F IH off Hn. constructor. now apply IH.
    - intros off. constructor.
    - intros m ms IH IHs off. cbn [wvals]. pose proof (wval_none fd b R m off) as N.
      assert (D : n_params m = 0 \/ n_params m <> 0) by lia. destruct D as [Z|Z].
      + rewrite (proj2 N Z), Z, Nat.add_0_r. apply reps_none; auto.
      + specialize (IH off Z). destruct (wval fd b R m off) eqn:E; [now destruct Z; apply N| |]; apply reps_cons; auto.
  Qed.

  Section Fix.
    Variables (m : module K) (s s' : list nat) (b : nat) (x : T).
    Hypotheses (Ty : typed m s s') (Hb : 0 < b) (Wx : wf x) (Sx : shape x = b :: s).

    Lemma jac_input st : snd (jacobian m st x None Input) = Ok (Some (dense b (numel s') (numel s) (JX m x))).
    Proof.
      destruct (fwd_total m s s' b x Ty Hb Wx Sx) as (y & Fy & _).
      now destruct (tree_jacobian BF BPF BLm BPm BLj m s s' Ty b st x y Hb Wx Sx Fy).
    Qed.
    Lemma jac_weight st : n_params m <> 0 -> snd (jacobian m st x None Weight) = Ok (Some (dense b (numel s') (n_params m) (JW m x))).
    Proof.
      intros Hn. destruct (fwd_total m s s' b x Ty Hb Wx Sx) as (y & Fy & _).
      destruct (tree_jacobian BF BPF BLm BPm BLj m s s' Ty b st x y Hb Wx Sx Fy) as [_ E]. rewrite E.
      - unfold wopt. destruct (Nat.eqb_spec (n_params m) 0); [contradiction|reflexivity].
      - destruct m; auto.
    Qed.
    Lemma jac_weight0 st : n_params m = 0 -> (forall F, m <> Skip F) -> snd (jacobian m st x None Weight) = Ok None.
    Proof.
      intros Hn NS. destruct (fwd_total m s s' b x Ty Hb Wx Sx) as (y & Fy & _).
      destruct (tree_jacobian BF BPF BLm BPm BLj m s s' Ty b st x y Hb Wx Sx Fy) as [_ E]. rewrite E.
      - unfold wopt. now rewrite Hn.
      - destruct m; auto. now destruct (NS m0).
    Qed.

    Lemma vjp_input st st' v : wf v -> shape v = [b; numel s'] ->
      exists J, snd (jacobian m st x None Input) = Ok (Some J) /\ wf J /\ shape J = [b; numel s'; numel s] /\
        snd (vjp m st' x None v Input) = Ok (Some (vJ b (numel s') (numel s) (entry J) v)).
    Proof.
      intros Wv Sv. destruct (fwd_total m s s' b x Ty Hb Wx Sx) as (y & Fy & _).
      eexists. split; [apply jac_input|]. split; [apply wf_tab|]. split; [reflexivity|].
      rewrite vJ_dense. now destruct (tree_vjp_none BF BPF BLv BPv m s s' Ty b st' x y v Hb Wx Sx Fy Wv Sv).
    Qed.
    Lemma vjp_weight st st' v : wf v -> shape v = [b; numel s'] ->
      (n_params m <> 0 -> exists J, snd (jacobian m st x None Weight) = Ok (Some J) /\ wf J /\ shape J = [b; numel s'; n_params m] /\
        snd (vjp m st' x None v Weight) = Ok (Some (vJ b (numel s') (n_params m) (entry J) v))) /\
      (n_params m = 0 -> snd (vjp m st' x None v Weight) = Ok None).
    Proof.
      intros Wv Sv. destruct (fwd_total m s s' b x Ty Hb Wx Sx) as (y & Fy & _).
      destruct (tree_vjp_none BF BPF BLv BPv m s s' Ty b st' x y v Hb Wx Sx Fy Wv Sv) as [_ E]. rewrite E. unfold wopt.
      split; intros Hn.
      - eexists. split; [now apply jac_weight|]. split; [apply wf_tab|]. split; [reflexivity|].
        destruct (Nat.eqb_spec (n_params m) 0); [contradiction|]. now rewrite vJ_dense.
      - now rewrite Hn.
    Qed.
    Lemma mjp_input st st' r M : 0 < r -> wf M -> shape M = [b; r; numel s'] ->
      exists J, snd (jacobian m st x None Input) = Ok (Some J) /\ wf J /\ shape J = [b; numel s'; numel s] /\
        snd (mjp m st' x None (Some M) Input) = Ok (Some (MJ b r (numel s') (numel s) (entry J) M)).
    Proof.
      intros Hr Wv Sv. destruct (fwd_total m s s' b x Ty Hb Wx Sx) as (y & Fy & _).
      eexists. split; [apply jac_input|]. split; [apply wf_tab|]. split; [reflexivity|].
      rewrite MJ_dense. now destruct (tree_mjp_none BF BPF BLm BPm m s s' Ty b st' x y r M Hb Wx Sx Fy Hr Wv Sv).
    Qed.
    Lemma mjp_weight st st' r M : 0 < r -> wf M -> shape M = [b; r; numel s'] ->
      (n_params m <> 0 -> exists J, snd (jacobian m st x None Weight) = Ok (Some J) /\ wf J /\ shape J = [b; numel s'; n_params m] /\
        snd (mjp m st' x None (Some M) Weight) = Ok (Some (MJ b r (numel s') (n_params m) (entry J) M))) /\
      (n_params m = 0 -> snd (mjp m st' x None (Some M) Weight) = Ok None).
    Proof.
      intros Hr Wv Sv. destruct (fwd_total m s s' b x Ty Hb Wx Sx) as (y & Fy & _).
      destruct (tree_mjp_none BF BPF BLm BPm m s s' Ty b st' x y r M Hb Wx Sx Fy Hr Wv Sv) as [_ E]. rewrite E. unfold wopt.
      split; intros Hn.
      - eexists. split; [now apply jac_weight|]. split; [apply wf_tab|]. split; [reflexivity|].
        destruct (Nat.eqb_spec (n_params m) 0); [contradiction|]. now rewrite MJ_dense.
      - now rewrite Hn.
    Qed.

    Lemma jTmjp_input st st' fd td M : all_sym m -> nonempty m -> wf M -> shape M = metric_shape fd b (numel s') ->
      exists J, snd (jacobian m st x None Input) = Ok (Some J) /\ wf J /\ shape J = [b; numel s'; numel s] /\
        snd (jTmjp m st' x None (VT M) Input fd td false) = Ok (VT (pull b (numel s') (numel s) (entry J) fd td M)).
    Proof.
      intros Sy Ne Wv Sv. destruct (fwd_total m s s' b x Ty Hb Wx Sx) as (y & Fy & _).
      eexists. split; [apply jac_input|]. split; [apply wf_tab|]. split; [reflexivity|].
      destruct (tree_pull_none BF BPF BLm BPm BLp BPp m s s' Ty Sy Ne b st' x y fd td M Hb Wx Sx Fy Wv Sv) as [E _]. rewrite E.
      do 2 f_equal. symmetry. apply present_ext. intros. now apply pull_at_dense.
    Qed.
    Lemma jTmjp_weight st st' fd td M : all_sym m -> nonempty m -> wf M -> shape M = metric_shape fd b (numel s') ->
      (n_params m <> 0 -> exists J, snd (jacobian m st x None Weight) = Ok (Some J) /\ wf J /\ shape J = [b; numel s'; n_params m] /\
        snd (jTmjp m st' x None (VT M) Weight fd td false) = Ok (wval td b (pull_at (numel s') (entry J) (metric fd M)) m 0)) /\
      (n_params m = 0 -> snd (jTmjp m st' x None (VT M) Weight fd td false) = Ok VNone).
    Proof.
      intros Sy Ne Wv Sv. destruct (fwd_total m s s' b x Ty Hb Wx Sx) as (y & Fy & _).
      destruct (tree_pull_none BF BPF BLm BPm BLp BPp m s s' Ty Sy Ne b st' x y fd td M Hb Wx Sx Fy Wv Sv) as [_ E]. rewrite E.
      split; intros Hn.
      - eexists. split; [now apply jac_weight|]. split; [apply wf_tab|]. split; [reflexivity|]. f_equal. symmetry.
        apply wval_ext. intros. now apply pull_at_dense.
      - f_equal. now apply wval_none.
    Qed.
    Lemma jTmjp_weight_diag st st' fd M : all_sym m -> nonempty m -> n_params m <> 0 -> wf M -> shape M = metric_shape fd b (numel s') ->
      exists J, snd (jacobian m st x None Weight) = Ok (Some J) /\ wf J /\ shape J = [b; numel s'; n_params m] /\
        snd (jTmjp m st' x None (VT M) Weight fd true false) =
        Ok (VT (present true b (n_params m) (pull_at (numel s') (entry J) (metric fd M)))).
    Proof.
      intros Sy Ne Hn Wv Sv. destruct (jTmjp_weight st st' fd true M Sy Ne Wv Sv) as [E _]. destruct (E Hn) as (J & E1 & E2 & E3 & E4).
      exists J. repeat split; auto. rewrite E4. f_equal.
      rewrite wval_diag by auto. reflexivity.
    Qed.

    Lemma jvp_input st st' val v : fwdable m -> val_ok m x val -> wf v -> shape v = [b; numel s] ->
      exists J, snd (jacobian m st x None Input) = Ok (Some J) /\ wf J /\ shape J = [b; numel s'; numel s] /\
        snd (jvp m st' x val v Input) = Ok (Some (Jv b (numel s') (numel s) (entry J) v)).
    Proof.
      intros Fb Vo Wv Sv. destruct (fwd_total m s s' b x Ty Hb Wx Sx) as (y & Fy & _).
      eexists. split; [apply jac_input|]. split; [apply wf_tab|]. split; [reflexivity|].
      assert (Vy : val = None \/ val = Some y) by (destruct Vo as [->|(y' & E & ->)]; [now left|right; congruence]).
      rewrite Jv_dense. now apply (proj1 (tree_jvp BF BPF (fun l s s' H G => proj1 (leaf_forth l s s' H G))) m s s' Ty Fb b st' x y val Hb Wx Sx Fy Vy).
    Qed.
    Lemma jvp_weight st st' val v : fwdable m -> skips_param m -> val_ok m x val -> wf v -> shape v = [b; n_params m] ->
      (n_params m <> 0 -> exists J, snd (jacobian m st x None Weight) = Ok (Some J) /\ wf J /\ shape J = [b; numel s'; n_params m] /\
        snd (jvp m st' x val v Weight) = Ok (Some (Jv b (numel s') (n_params m) (entry J) v))) /\
      (n_params m = 0 -> snd (jvp m st' x val v Weight) = Ok None).
    Proof.
      intros Fb Sp Vo Wv Sv. destruct (fwd_total m s s' b x Ty Hb Wx Sx) as (y & Fy & _).
      assert (Vy : val = None \/ val = Some y) by (destruct Vo as [->|(y' & E & ->)]; [now left|right; congruence]).
      destruct (proj1 (tree_jvp BF BPF (fun l s s' H G => proj1 (leaf_forth l s s' H G))) m s s' Ty Fb b st' x y val Hb Wx Sx Fy Vy) as [_ E].
      rewrite (E Sp v Wv Sv). unfold wopt. split; intros Hn.
      - eexists. split; [now apply jac_weight|]. split; [apply wf_tab|]. split; [reflexivity|].
        destruct (Nat.eqb_spec (n_params m) 0); [contradiction|]. now rewrite Jv_dense.
      - now rewrite Hn.
    Qed.
    Lemma jmp_input st st' val c M : fwdable m -> val_ok m x val -> 0 < c -> wf M -> shape M = [b; numel s; c] ->
      exists J, snd (jacobian m st x None Input) = Ok (Some J) /\ wf J /\ shape J = [b; numel s'; numel s] /\
        snd (jmp m st' x val (Some M) Input) = Ok (Some (JM b (numel s') (numel s) c (entry J) M)).
    Proof.
      intros Fb Vo Hc Wv Sv. destruct (fwd_total m s s' b x Ty Hb Wx Sx) as (y & Fy & _).
      eexists. split; [apply jac_input|]. split; [apply wf_tab|]. split; [reflexivity|].
      assert (Vy : val = None \/ val = Some y) by (destruct Vo as [->|(y' & E & ->)]; [now left|right; congruence]).
      rewrite JM_dense. now apply (proj1 (tree_jmp BF BPF (fun l s s' H G => proj1 (proj2 (leaf_forth l s s' H G))) c Hc) m s s' Ty Fb b st' x y val Hb Wx Sx Fy Vy).
    Qed.
    Lemma jmp_weight st st' val c M : fwdable m -> skips_param m -> val_ok m x val -> 0 < c -> wf M -> shape M = [b; n_params m; c] ->
      (n_params m <> 0 -> exists J, snd (jacobian m st x None Weight) = Ok (Some J) /\ wf J /\ shape J = [b; numel s'; n_params m] /\
        snd (jmp m st' x val (Some M) Weight) = Ok (Some (JM b (numel s') (n_params m) c (entry J) M))) /\
      (n_params m = 0 -> snd (jmp m st' x val (Some M) Weight) = Ok None).
    Proof.
      intros Fb Sp Vo Hc Wv Sv. destruct (fwd_total m s s' b x Ty Hb Wx Sx) as (y & Fy & _).
      assert (Vy : val = None \/ val = Some y) by (destruct Vo as [->|(y' & E & ->)]; [now left|right; congruence]).
      destruct (proj1 (tree_jmp BF BPF (fun l s s' H G => proj1 (proj2 (leaf_forth l s s' H G))) c Hc) m s s' Ty Fb b st' x y val Hb Wx Sx Fy Vy) as [_ E].
      rewrite (E Sp M Wv Sv). unfold wopt. split; intros Hn.
      - eexists. split; [now apply jac_weight|]. split; [apply wf_tab|]. split; [reflexivity|].
        destruct (Nat.eqb_spec (n_params m) 0); [contradiction|]. now rewrite JM_dense.
      - now rewrite Hn.
    Qed.

    Lemma push_none st fd td : fwdable m -> nonempty m -> push_ok m s s' st b x None fd td.
    Proof.
      intros Fb Ne. destruct (fwd_total m s s' b x Ty Hb Wx Sx) as (y & Fy & _).
      exact (tree_push_none BF BPF (fun l s s' H G => proj1 (proj2 (leaf_forth l s s' H G))) (fun l s s' H G => proj2 (proj2 (leaf_forth l s s' H G)))
        m s s' Ty Fb Ne b st x y fd td Hb Wx Sx Fy).
    Qed.
    Lemma jmjTp_input st st' fd td M : fwdable m -> nonempty m -> wf M -> shape M = metric_shape fd b (numel s) ->
      exists J, snd (jacobian m st x None Input) = Ok (Some J) /\ wf J /\ shape J = [b; numel s'; numel s] /\
        snd (jmjTp m st' x None (VT M) Input fd td false) = Ok (VT (push b (numel s') (numel s) (entry J) fd td M)).
    Proof.
      intros Fb Ne Wv Sv. eexists. split; [apply jac_input|]. split; [apply wf_tab|]. split; [reflexivity|].
      destruct (push_none st' fd td Fb Ne) as [E _]. rewrite (E M Wv Sv). do 2 f_equal. symmetry. apply present_ext. intros. now apply push_at_dense.
    Qed.
    Lemma jmjTp_weight_rep st st' fd td R v : fwdable m -> nonempty m -> n_params m <> 0 -> rep fd b R m 0 v ->
      exists J, snd (jacobian m st x None Weight) = Ok (Some J) /\ wf J /\ shape J = [b; numel s'; n_params m] /\
        snd (jmjTp m st' x None v Weight fd td false) =
        Ok (VT (present td b (numel s') (push_at (n_params m) (entry J) (same_layer (leaf_at m) (dpart fd R))))).
    Proof.
      intros Fb Ne Hn Rp. eexists. split; [now apply jac_weight|]. split; [apply wf_tab|]. split; [reflexivity|].
      destruct (push_none st' fd td Fb Ne) as [_ E]. rewrite (E Hn R 0 v Rp). do 2 f_equal. apply present_ext. intros. symmetry. now apply push_at_dense.
    Qed.
    Lemma jmjTp_weight st st' fd td M : fwdable m -> nonempty m -> n_params m <> 0 -> wf M -> shape M = metric_shape fd b (n_params m) ->
      exists J, snd (jacobian m st x None Weight) = Ok (Some J) /\ wf J /\ shape J = [b; numel s'; n_params m] /\
        snd (jmjTp m st' x None (VT M) Weight fd td false) =
        Ok (VT (present td b (numel s') (push_at (n_params m) (entry J) (same_layer (leaf_at m) (metric fd M))))).
    Proof.
      intros Fb Ne Hn WM SM.
      assert (Eb : M = block fd b (n_params m) 0 (metric fd M)).
      { destruct fd; cbn [metric_shape] in SM; unfold block, present; [apply (tab2_eq n0)|apply (tab3_eq n0)]; auto.
        intros. unfold metric. cbn [Nat.add]. now rewrite Nat.eqb_refl. }
      assert (Rp : rep fd b (metric fd M) m 0 (VT M)) by (rewrite Eb at 2; now apply rep_block).
      destruct (jmjTp_weight_rep st st' fd td (metric fd M) (VT M) Fb Ne Hn Rp) as (J & E1 & E2 & E3 & E4).
      exists J. repeat split; auto. rewrite E4. do 2 f_equal. apply present_ext. intros. apply push_at_ext; auto. intros p p' Hp Hp'.
      unfold same_layer. destruct Nat.eqb; auto. unfold dpart, metric. destruct fd; auto. now rewrite Nat.eqb_refl.
    Qed.
  End Fix.
End Trees.
