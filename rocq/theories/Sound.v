(** Forward products that return, return the product with the matrix that jacobian returns. *)
From Coq Require Import String Ascii List Arith ZArith Lia Bool.
From Verif Require Import Scalar Sums Tensor TensorLemmas EinsumLemmas Conv Abstract Simple LinearLayer ConvLayer PoolLayer
  Module Spec SpecQ Domain OpLemmas ReshapeLemmas Jac LeafSpec LeafSimple TreeBase TreeVjp StateCoh TreeMjp TreePull TreeJvp TreeJmp TreePush Leaves Trees
  LoudSpec Loud PoolExact PoolJmp SoundJvp SoundJmp SoundPush.
Import ListNotations.
Local Open Scope nat_scope.
Local Open Scope list_scope.

Section Sound.
  Context {K} `{CR : CRing K}.
  Add Ring Kring : (cring : ring_theory n0 n1 nadd nmul nsub nopp (@eq K)).
  Notation gt := (get (@n0 K _)).
  Notation T := (tensor K).

  Lemma pool_typed_sized cfg s s' : pool_typed cfg s s' -> pool_sized cfg s s'.
  Proof.
    unfold pool_typed, pool_sized. destruct s as [|c [|h1 [|w1 [|? ?]]]]; try tauto.
    destruct s' as [|c' [|h2 [|w2 [|? ?]]]]; try tauto.
    intros (P1 & P2 & -> & L1 & L2 & O1 & O2 & _). repeat rewrite numel_cons in P1, P2. rewrite numel_nil in P1, P2.
    repeat (split; auto); nia.
  Qed.
  Lemma pool_jmp_snd cc cfg s s' : pool_typed cfg s s' -> forall b st x y val v t, 0 < b -> wf x -> shape x = b :: s ->
    fwd (MaxPool cfg) x = Ok y -> val = None \/ val = Some y -> pool_fresh (MaxPool cfg) st x val -> wf v -> shape v = [b; numel s; cc] ->
    snd (jmp (MaxPool cfg) st x val (Some v) Input) = Ok t -> t = Some (JM b (numel s') (numel s) cc (JX (K := K) (MaxPool cfg) x) v).
  Proof.
    intros Ty b st x y val v t Hb Wx Sx Fy Hv Pf Wv Sv E.
    destruct (pool_jmp_any cfg s s' b x (pool_typed_sized _ _ _ Ty) Hb Wx Sx) as (J & WJ & SJ & EJ & E1 & E2 & _).
    assert (Q : exists k, snd (jmp (MaxPool cfg) k x None (Some v) Input) = Ok t).
    { destruct Pf as [->|[k ->]]; [eauto|]. destruct Hv as [->| ->]; [eauto|]. exists k. rewrite <- E.
      cbn [jmp]. unfold ensure. rewrite (forward_eta (MaxPool cfg) k x) at 1. rewrite Fy. reflexivity. }
    destruct Q as [k Q]. destruct (Nat.eq_dec cc (numel s)) as [->|Nc].
    - rewrite (E1 k v Wv Sv) in Q. injection Q as <-. f_equal.
      pose proof (jac_input (MaxPool cfg) s s' b x (ty_pool _ _ _ Ty) Hb Wx Sx k) as EJ'. rewrite EJ in EJ'. injection EJ' as ->. apply JM_dense.
    - rewrite (E2 k v cc Sv Nc) in Q. discriminate.
  Qed.

  Section Fix.
    Variables (m : module K) (s s' : list nat) (b : nat) (x : T).
    Hypotheses (Ty : typed m s s') (Hb : 0 < b) (Wx : wf x) (Sx : shape x = b :: s).

    Lemma snd_jvp_input st st' val v r : val_ok m x val -> wf v -> shape v = [b; numel s] -> snd (jvp m st' x val v Input) = Ok r ->
      exists J, snd (jacobian m st x None Input) = Ok (Some J) /\ wf J /\ shape J = [b; numel s'; numel s] /\
        r = Some (Jv b (numel s') (numel s) (entry J) v).
    Proof.
      intros Vo Wv Sv E. destruct (fwd_total m s s' b x Ty Hb Wx Sx) as (y & Fy & _).
      eexists. split; [exact (jac_input m s s' b x Ty Hb Wx Sx st)|]. split; [apply wf_tab|]. split; [reflexivity|].
      assert (Vy : val = None \/ val = Some y) by (destruct Vo as [->|(y' & E' & ->)]; [now left|right; congruence]).
      rewrite Jv_dense. destruct (proj1 (sound_jvp BF BPF (fun l s s' H G => proj1 (leaf_forth l s s' H G))) m s s' Ty b st' x y val Hb Wx Sx Fy Vy) as [I1 _]. now apply I1.
    Qed.
    Lemma snd_jvp_weight st st' val v r : val_ok m x val -> wf v -> shape v = [b; n_params m] -> snd (jvp m st' x val v Weight) = Ok r ->
      (n_params m <> 0 -> exists J, snd (jacobian m st x None Weight) = Ok (Some J) /\ wf J /\ shape J = [b; numel s'; n_params m] /\
        r = Some (Jv b (numel s') (n_params m) (entry J) v)) /\
      (n_params m = 0 -> r = None).
    Proof.
      intros Vo Wv Sv E. destruct (fwd_total m s s' b x Ty Hb Wx Sx) as (y & Fy & _).
      assert (Vy : val = None \/ val = Some y) by (destruct Vo as [->|(y' & E' & ->)]; [now left|right; congruence]).
      destruct (proj1 (sound_jvp BF BPF (fun l s s' H G => proj1 (leaf_forth l s s' H G))) m s s' Ty b st' x y val Hb Wx Sx Fy Vy) as [_ I2].
      rewrite (I2 v r Wv Sv E). unfold wopt. split; intros Hn.
      - eexists. split; [exact (jac_weight m s s' b x Ty Hb Wx Sx st Hn)|]. split; [apply wf_tab|]. split; [reflexivity|].
        destruct (Nat.eqb_spec (n_params m) 0); [contradiction|]. now rewrite Jv_dense.
      - now rewrite Hn.
    Qed.
    Lemma snd_jmp_input st st' c M r : 0 < c -> wf M -> shape M = [b; numel s; c] ->
      snd (jmp m st' x None (Some M) Input) = Ok r \/
      (exists k y, fwd m x = Ok y /\ st' = fst (forward m k x) /\ snd (jmp m st' x (Some y) (Some M) Input) = Ok r) ->
      exists J, snd (jacobian m st x None Input) = Ok (Some J) /\ wf J /\ shape J = [b; numel s'; numel s] /\
        r = Some (JM b (numel s') (numel s) c (entry J) M).
    Proof.
      intros Hc WM SM E. destruct (fwd_total m s s' b x Ty Hb Wx Sx) as (y & Fy & _).
      eexists. split; [exact (jac_input m s s' b x Ty Hb Wx Sx st)|]. split; [apply wf_tab|]. split; [reflexivity|]. rewrite JM_dense.
      pose proof (fun val Vy => proj1 (proj1 (sound_jmp BF BPF (fun l s s' H G => proj1 (proj2 (leaf_forth l s s' H G))) c Hc (pool_jmp_snd c)) m s s' Ty b st' x y val Hb Wx Sx Fy Vy)) as I1.
      destruct E as [E|(k & y' & Fy' & -> & E)].
      - apply (I1 None (or_introl eq_refl)) in E; auto. destruct m; cbn; auto.
      - assert (y' = y) by congruence. subst y'. apply (I1 (Some y) (or_intror eq_refl)) in E; auto. apply pool_fresh_fwd.
    Qed.
    Lemma snd_jmp_weight st st' val c M r : val_ok m x val -> 0 < c -> wf M -> shape M = [b; n_params m; c] -> snd (jmp m st' x val (Some M) Weight) = Ok r ->
      (n_params m <> 0 -> exists J, snd (jacobian m st x None Weight) = Ok (Some J) /\ wf J /\ shape J = [b; numel s'; n_params m] /\
        r = Some (JM b (numel s') (n_params m) c (entry J) M)) /\
      (n_params m = 0 -> r = None).
    Proof.
      intros Vo Hc Wv Sv E. destruct (fwd_total m s s' b x Ty Hb Wx Sx) as (y & Fy & _).
      assert (Vy : val = None \/ val = Some y) by (destruct Vo as [->|(y' & E' & ->)]; [now left|right; congruence]).
      destruct (proj1 (sound_jmp BF BPF (fun l s s' H G => proj1 (proj2 (leaf_forth l s s' H G))) c Hc (pool_jmp_snd c)) m s s' Ty b st' x y val Hb Wx Sx Fy Vy) as [_ I2].
      rewrite (I2 M r Wv Sv E). unfold wopt. split; intros Hn.
      - eexists. split; [exact (jac_weight m s s' b x Ty Hb Wx Sx st Hn)|]. split; [apply wf_tab|]. split; [reflexivity|].
        destruct (Nat.eqb_spec (n_params m) 0); [contradiction|]. now rewrite JM_dense.
      - now rewrite Hn.
    Qed.
    Lemma snd_jmjTp_input st st' fd td M r : nonempty m -> wf M -> shape M = metric_shape fd b (numel s) ->
      snd (jmjTp m st' x None (VT M) Input fd td false) = Ok r ->
      exists J, snd (jacobian m st x None Input) = Ok (Some J) /\ wf J /\ shape J = [b; numel s'; numel s] /\
        r = VT (push b (numel s') (numel s) (entry J) fd td M).
    Proof.
      intros Ne WM SM E. pose proof (jmjTp_in_fwdable m _ _ _ _ _ _ _ _ E) as Fb.
      destruct (jmjTp_input m s s' b x Ty Hb Wx Sx st st' fd td M Fb Ne WM SM) as (J & E1 & E2 & E3 & E4).
      exists J. repeat split; auto. congruence.
    Qed.
    Lemma snd_jmjTp_weight_rep st st' fd td R v r : nonempty m -> n_params m <> 0 -> rep fd b R m 0 v ->
      snd (jmjTp m st' x None v Weight fd td false) = Ok r ->
      exists J, snd (jacobian m st x None Weight) = Ok (Some J) /\ wf J /\ shape J = [b; numel s'; n_params m] /\
        r = VT (present td b (numel s') (push_at (n_params m) (entry J) (same_layer (leaf_at m) (dpart fd R)))).
    Proof.
      intros Ne Hn Rp E. destruct (fwd_total m s s' b x Ty Hb Wx Sx) as (y & Fy & _).
      eexists. split; [exact (jac_weight m s s' b x Ty Hb Wx Sx st Hn)|]. split; [apply wf_tab|]. split; [reflexivity|].
      rewrite (sound_push_none m s s' Ty Ne b st' x y fd td Hb Wx Sx Fy Hn R 0 v r Rp E). f_equal. apply present_ext. intros. symmetry. now apply push_at_dense.
    Qed.
    Lemma snd_jmjTp_weight st st' fd td M r : nonempty m -> n_params m <> 0 -> wf M -> shape M = metric_shape fd b (n_params m) ->
      snd (jmjTp m st' x None (VT M) Weight fd td false) = Ok r ->
      exists J, snd (jacobian m st x None Weight) = Ok (Some J) /\ wf J /\ shape J = [b; numel s'; n_params m] /\
        r = VT (present td b (numel s') (push_at (n_params m) (entry J) (same_layer (leaf_at m) (metric fd M)))).
    Proof.
      intros Ne Hn WM SM E.
      assert (Eb : M = block fd b (n_params m) 0 (metric fd M)).
      { destruct fd; cbn [metric_shape] in SM; unfold block, present; [apply (tab2_eq n0)|apply (tab3_eq n0)]; auto.
        intros. unfold metric. cbn [Nat.add]. now rewrite Nat.eqb_refl. }
      assert (Rp : rep fd b (metric fd M) m 0 (VT M)) by (rewrite Eb at 2; now apply rep_block).
      destruct (snd_jmjTp_weight_rep st st' fd td (metric fd M) (VT M) r Ne Hn Rp E) as (J & E1 & E2 & E3 & E4).
      exists J. repeat split; auto. rewrite E4. f_equal. apply present_ext. intros. apply push_at_ext; auto. intros p p' Hp Hp'.
      unfold same_layer. destruct Nat.eqb; auto. unfold dpart, metric. destruct fd; auto. now rewrite Nat.eqb_refl.
    Qed.
  End Fix.
End Sound.
