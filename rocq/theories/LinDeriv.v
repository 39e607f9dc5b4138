(** When is a returned matrix the derivative of a layer that acts linearly on every sample: exactly when it has the
    coefficients of the layer. *)
From Coq Require Import List Arith Lia Bool Reals Lra.
From Verif Require Import Scalar Sums Tensor TensorLemmas Conv Abstract Simple LinearLayer ConvLayer PoolLayer Module Spec Domain Jac
  OpLemmas Smooth Calc DerivLeaf Deriv.
Import ListNotations.
Local Open Scope nat_scope.
Local Open Scope list_scope.
Local Opaque derivable_pt_lim.

Definition listing (s : list nat) (g : nat -> R) : TR := mkT s (map g (seq 0 (numel s))).
Lemma listing_wf s g : wf (listing s g).
Proof. unfold wf, listing. cbn [data shape]. now rewrite map_length, seq_length. Qed.
Lemma listing_nth s g k : k < numel s -> nth k (data (listing s g)) 0%R = g k.
Proof.
  intros H. unfold listing. cbn [data]. rewrite nth_indep with (d' := g 0) by now rewrite map_length, seq_length.
  now rewrite map_nth, seq_nth.
Qed.
Lemma listing_eta (x : TR) : wf x -> listing (shape x) (fun k => nth k (data x) 0%R) = x.
Proof.
  intros W. destruct x as [s l]. unfold wf in W. cbn in *. unfold listing. cbn. f_equal. rewrite <- W.
  apply nth_ext with (d := 0%R) (d' := 0%R); [now rewrite map_length, seq_length|]. intros k Hk. rewrite map_length, seq_length in Hk.
  rewrite nth_indep with (d' := (fun k => nth k l 0%R) 0) by now rewrite map_length, seq_length.
  rewrite (map_nth (fun k => nth k l 0%R)). now rewrite seq_nth.
Qed.

Section Linear.
  Variables (f : TR -> res TR) (b : nat) (s s' : list nat) (A : nat -> nat -> R) (x J : TR).
  Hypothesis (Wx : wf x) (Sx : shape x = b :: s) (WJ : wf J) (SJ : shape J = [b; numel s'; numel s]).
  Hypothesis Lf : forall z, wf z -> shape z = b :: s -> exists y, f z = Ok y /\ wf y /\ shape y = b :: s' /\
    forall q i, q < b -> i < numel s' -> fl (numel s') y q i = bsum (numel s) (fun j => A i j * fl (numel s) z q j)%R.

  Lemma linear_derivative : derivative_at f x s' J <->
    forall q i j, q < b -> i < numel s' -> j < numel s -> entry J q i j = A i j.
  Proof.
    split.
    - intros D q i j Hq Hi Hj. set (n := numel s) in *. set (k0 := q * n + j).
      assert (Hk : k0 < numel (b :: s)) by (rewrite numel_cons; now apply flat_lt).
      set (e := fun k => if k =? k0 then 1%R else 0%R).
      set (c := fun t => listing (b :: s) (fun k => (nth k (data x) 0 + t * e k)%R)).
      assert (C0 : c 0%R = x).
      { rewrite <- (listing_eta x Wx) at 1. rewrite Sx. unfold c, listing. f_equal. apply map_ext. intros a. ring. }
      destruct (D c 0%R (listing (b :: s) e) C0) as (y & Fy & My).
      { split; [apply listing_wf|]. split; [intros t; split; [apply listing_wf|reflexivity]|].
        intros k Hk'. cbn [shape listing] in Hk'. rewrite listing_nth by exact Hk'.
        apply dl_ext with (f := fun t => (nth k (data x) 0 + t * e k)%R); [intros t; symmetry; unfold c; exact (listing_nth (b :: s) _ k Hk')|].
        eapply dl_eq; [apply dl_plus; [apply dl_const|apply dl_mult; [apply dl_id|apply dl_const]]|]. cbv beta. ring. }
      destruct (jac_apply_ok b (numel s') n s' J (listing (b :: s) e) WJ SJ eq_refl) as (_ & S1 & V1).
      pose proof (proj2 (moves_curve b s' y 0%R _ My S1) q i Hq Hi) as D1. rewrite V1 in D1 by auto.
      assert (Fl : forall j', j' < n -> fl n (listing (b :: s) e) q j' = delta j j').
      { intros j' Hj'. unfold fl. rewrite listing_nth by (rewrite numel_cons; now apply flat_lt). unfold e, k0, delta.
        destruct (Nat.eqb_spec j j') as [->|N]; [now rewrite Nat.eqb_refl|].
        destruct (Nat.eqb_spec (q * n + j') (q * n + j)); [lia|reflexivity]. }
      assert (D2 : derivable_pt_lim (fun t => fl (numel s') (y t) q i) 0%R (A i j)).
      { eapply dl_ext with (f := fun t => (bsum n (fun j' => A i j' * nth (q * n + j') (data x) 0) + t * A i j)%R).
        2:{ eapply dl_eq; [apply dl_plus; [apply dl_const|apply dl_mult; [apply dl_id|apply dl_const]]|]. cbv beta. ring. }
        intros t. destruct (Lf (c t)) as (y' & F' & _ & _ & V'); [apply listing_wf|reflexivity|].
        rewrite Fy in F'. injection F' as ->. rewrite V' by auto. fold n.
        rewrite <- (bsumR_delta n j (fun j' => (A i j')%R)) by auto. rewrite <- bsumR_mul_l, <- bsumR_add.
        apply bsum_ext. intros j' Hj'. unfold fl, c. rewrite listing_nth by (rewrite numel_cons; now apply flat_lt).
        specialize (Fl j' Hj'). unfold fl in Fl. rewrite listing_nth in Fl by (rewrite numel_cons; now apply flat_lt). rewrite Fl. ring. }
      pose proof (uniqueness_limite _ _ _ _ D1 D2) as U. rewrite <- U. symmetry.
      rewrite <- (bsumR_delta n j (fun j' => entry J q i j')) by auto. apply bsum_ext. intros j' Hj'. rewrite Fl by auto. ring.
    - intros E c t0 d Ec Mv. assert (Sd : shape d = b :: s). { destruct Mv as (_ & C1 & _). destruct (C1 t0) as [_ <-]. now rewrite Ec. }
      pose proof (moves_curve b s c t0 d Mv Sd) as [Cw Cd].
      exists (fun t => match f (c t) with Ok y => y | Raise _ => c t end). split.
      { intros t. destruct (Cw t) as [W1 S1]. destruct (Lf (c t) W1 S1) as (y & F & _). now rewrite F. }
      destruct (jac_apply_ok b (numel s') (numel s) s' J d WJ SJ eq_refl) as (W1 & S1 & V1).
      apply (curve_moves b s' _ t0 (fun q i => bsum (numel s) (fun j => A i j * fl (numel s) d q j)%R)); auto.
      + split.
        * intros t. destruct (Cw t) as [W2 S2]. destruct (Lf (c t) W2 S2) as (y & F & Wy & Sy & _). rewrite F. auto.
        * intros q i Hq Hi. eapply dl_ext with (f := fun t => bsum (numel s) (fun j => A i j * fl (numel s) (c t) q j)%R).
          { intros t. destruct (Cw t) as [W2 S2]. destruct (Lf (c t) W2 S2) as (y & F & _ & _ & V). rewrite F. symmetry. now apply V. }
          apply (dl_bsum (numel s) (fun j t => (A i j * fl (numel s) (c t) q j)%R)). intros j Hj. apply dl_scal. now apply Cd.
      + intros q i Hq Hi. rewrite V1 by auto. apply bsum_ext. intros j Hj. now rewrite E.
  Qed.
End Linear.
