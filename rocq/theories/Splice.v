(** A Sequential nested in a Sequential can be spliced into it, at any position. *)
From Coq Require Import String Ascii List Arith ZArith Lia Bool.
From Verif Require Import Scalar Sums Tensor TensorLemmas EinsumLemmas Conv Abstract Simple LinearLayer ConvLayer PoolLayer
  Module Spec OpLemmas ReshapeLemmas Jac LeafSpec LeafSimple TreeBase TreeVjp TreeMjp TreePull TreeJvp TreeJmp TreePush Leaves Trees SpecQ Nest Algebra.
Import ListNotations.
Local Open Scope nat_scope.
Local Open Scope list_scope.

Section Splice.
  Context {K} `{CR : CRing K}.
  Notation T := (tensor K).
  Variables (p a r : list (module K)) (s s' : list nat) (b : nat) (x : T) (h h' : st K).
  Notation nested := (Seq true (p ++ Seq true a :: r)).
  Notation spliced := (Seq true (p ++ a ++ r)).
  Hypotheses (Ty : typed nested s s') (Hb : 0 < b) (Wx : wf x) (Sx : shape x = b :: s).
  Let A := splice_alike p a r s s' b x Ty Hb Wx Sx.
  Lemma splice_params : n_params nested = n_params spliced /\ typed spliced s s'.
  Proof. split; apply A. Qed.
  Lemma splice_jacobian w : w <> Other -> snd (jacobian nested h x None w) = snd (jacobian spliced h' x None w).
  Proof.
    intros Hw. destruct w; [|apply (alike_jac_weight _ _ s s' b x h h' A); intros; split; discriminate|congruence]. exact (alike_jac_input _ _ s s' b x h h' A).
  Qed.
  Lemma splice_vjp v w : w <> Other -> wf v -> shape v = [b; numel s'] -> snd (vjp nested h x None v w) = snd (vjp spliced h' x None v w).
  Proof. exact (alike_vjp _ _ s s' b x h h' A v w). Qed.
  Lemma splice_mjp k M w : w <> Other -> 0 < k -> wf M -> shape M = [b; k; numel s'] ->
    snd (mjp nested h x None (Some M) w) = snd (mjp spliced h' x None (Some M) w).
  Proof. exact (alike_mjp _ _ s s' b x h h' A k M w). Qed.
  Lemma splice_jvp v w : w <> Other -> fwdable nested -> (w = Weight -> skips_param nested) ->
    wf v -> shape v = [b; match w with Input => numel s | _ => n_params nested end] -> snd (jvp nested h x None v w) = snd (jvp spliced h' x None v w).
  Proof.
    intros Hw Fb Sk. apply (alike_jvp _ _ s s' b x h h' A v w); auto; [now apply splice_fwdable|]. intros E. split; auto. now apply splice_skips, Sk.
  Qed.
  Lemma splice_jmp c M w : w <> Other -> fwdable nested -> (w = Weight -> skips_param nested) -> 0 < c ->
    wf M -> shape M = [b; match w with Input => numel s | _ => n_params nested end; c] -> snd (jmp nested h x None (Some M) w) = snd (jmp spliced h' x None (Some M) w).
  Proof.
    intros Hw Fb Sk. apply (alike_jmp _ _ s s' b x h h' A c M w); auto; [now apply splice_fwdable|]. intros E. split; auto. now apply splice_skips, Sk.
  Qed.
  Lemma splice_jTmjp fd td M : all_sym nested -> nonempty nested -> wf M -> shape M = metric_shape fd b (numel s') ->
    snd (jTmjp nested h x None (VT M) Input fd td false) = snd (jTmjp spliced h' x None (VT M) Input fd td false).
  Proof. intros Y Ne. apply (alike_jTmjp _ _ s s' b x h h' A fd td M); auto; [now apply splice_sym|now apply splice_nonempty]. Qed.
  Lemma splice_jTmjp_weight fd td M : all_sym nested -> nonempty nested -> wf M -> shape M = metric_shape fd b (numel s') ->
    exists v v', snd (jTmjp nested h x None (VT M) Weight fd td false) = Ok v /\ snd (jTmjp spliced h' x None (VT M) Weight fd td false) = Ok v' /\ flat v = flat v'.
  Proof.
    intros Y Ne WM SM. pose proof (splice_sym p a r Y) as Y'. pose proof (splice_nonempty p a r Ne) as Ne'.
    destruct (jTmjp_weight nested s s' b x Ty Hb Wx Sx h h fd td M Y Ne WM SM) as [E Q].
    destruct (jTmjp_weight spliced s s' b x (al_t' _ _ _ _ _ _ A) Hb Wx Sx h' h' fd td M Y' Ne' WM SM) as [E' Q'].
    rewrite <- (al_n _ _ _ _ _ _ A) in E', Q'. destruct (Nat.eq_dec (n_params nested) 0) as [D|D].
    - rewrite Q, Q' by auto. now exists VNone, VNone.
    - destruct (E D) as (J & F1 & _ & _ & ->). destruct (E' D) as (J' & F1' & _ & _ & ->).
      rewrite (splice_jacobian Weight) in F1 by discriminate.
      assert (F : snd (jacobian spliced h' x None Weight) = snd (jacobian spliced h x None Weight)).
      { rewrite (jac_weight spliced s s' b x (al_t' _ _ _ _ _ _ A) Hb Wx Sx h), (jac_weight spliced s s' b x (al_t' _ _ _ _ _ _ A) Hb Wx Sx h'); auto;
        now rewrite <- (al_n _ _ _ _ _ _ A). }
      assert (J' = J) by congruence. subst J'. do 2 eexists. split; [reflexivity|]. split; [reflexivity|]. destruct td; [|apply flat_splice].
      rewrite !wval_diag; auto; rewrite <- (al_n _ _ _ _ _ _ A); auto.
  Qed.
  Lemma splice_jmjTp fd td M : fwdable nested -> nonempty nested -> wf M -> shape M = metric_shape fd b (numel s) ->
    snd (jmjTp nested h x None (VT M) Input fd td false) = snd (jmjTp spliced h' x None (VT M) Input fd td false).
  Proof. intros Y Ne. apply (alike_jmjTp _ _ s s' b x h h' A fd td M); auto; [now apply splice_fwdable|now apply splice_nonempty]. Qed.
  Lemma splice_jmjTp_weight fd td M : fwdable nested -> nonempty nested -> n_params nested <> 0 -> wf M -> shape M = metric_shape fd b (n_params nested) ->
    snd (jmjTp nested h x None (VT M) Weight fd td false) = snd (jmjTp spliced h' x None (VT M) Weight fd td false).
  Proof.
    intros Y Ne D. apply (alike_jmjTp_weight _ _ s s' b x h h' A fd td M); auto; [now apply splice_fwdable|now apply splice_nonempty|].
    intros. now rewrite !splice_leaf_at.
  Qed.
End Splice.
