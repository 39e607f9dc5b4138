(** Lemmas about the tensor operations of Tensor.v. *)
From Coq Require Import String Ascii List Arith ZArith Lia Bool.
From Verif Require Import Scalar Sums Tensor.
Import ListNotations.
Local Open Scope nat_scope.
Local Open Scope list_scope.

(** ** Indices *)
#[global] Arguments numel s : simpl never.
Lemma numel_nil : numel [] = 1.
Proof. reflexivity. Qed.
Lemma numel_cons d s : numel (d :: s) = d * numel s.
Proof. reflexivity. Qed.
Lemma numel_app s s' : numel (s ++ s') = numel s * numel s'.
Proof. unfold numel. induction s as [|d s IH]; cbn; [lia|]. rewrite IH. lia. Qed.

Lemma valid_len s idx : valid s idx -> length idx = length s.
Proof. revert idx; induction s as [|d s IH]; intros [|i idx]; cbn; try tauto. intros [_ V]. now rewrite (IH _ V). Qed.

Lemma ravel_lt s idx : valid s idx -> ravel s idx < numel s.
Proof.
  revert idx; induction s as [|d s IH]; intros [|i idx]; cbn [valid ravel]; try tauto; [rewrite numel_nil; lia|].
  intros [Hi V]. specialize (IH _ V). rewrite numel_cons. nia.
Qed.
Lemma unravel_valid s k : k < numel s -> valid s (unravel s k).
Proof.
  revert k; induction s as [|d s IH]; intros k Hk; cbn [unravel valid]; [exact I|].
  rewrite numel_cons in Hk.
  assert (numel s <> 0) by (intros E; rewrite E in Hk; lia).
  split.
  - apply Nat.div_lt_upper_bound; lia.
  - apply IH. now apply Nat.mod_upper_bound.
Qed.
Lemma ravel_unravel s k : k < numel s -> ravel s (unravel s k) = k.
Proof.
  revert k; induction s as [|d s IH]; intros k Hk; cbn [unravel ravel]; [rewrite numel_nil in Hk; lia|].
  rewrite numel_cons in Hk.
  assert (numel s <> 0) by (intros E; rewrite E in Hk; lia).
  rewrite IH by now apply Nat.mod_upper_bound.
  pose proof (Nat.div_mod k (numel s)). lia.
Qed.
Lemma unravel_ravel s idx : valid s idx -> unravel s (ravel s idx) = idx.
Proof.
  revert idx; induction s as [|d s IH]; intros [|i idx]; cbn [valid ravel unravel]; try tauto.
  intros [Hi V]. pose proof (ravel_lt _ _ V) as L.
  replace ((i * numel s + ravel s idx) / numel s) with i.
  2:{ apply (Nat.div_unique _ _ _ (ravel s idx)); lia. }
  replace ((i * numel s + ravel s idx) mod numel s) with (ravel s idx).
  2:{ apply (Nat.mod_unique _ _ i); lia. }
  now rewrite IH.
Qed.
Lemma ravel_inj s i j : valid s i -> valid s j -> ravel s i = ravel s j -> i = j.
Proof. intros Vi Vj E. rewrite <- (unravel_ravel s i), <- (unravel_ravel s j), E; auto. Qed.

Lemma valid_cons_inv d s i idx : valid (d :: s) (i :: idx) -> i < d /\ valid s idx.
Proof. intros V. exact V. Qed.
(** destruct a multi-index whose validity in an explicit shape is known *)
Ltac didx idx V :=
  repeat match type of V with
  | valid (_ :: _) ?l => destruct l as [|? ?]; [exfalso; exact V|];
      let H := fresh "Hb" in apply valid_cons_inv in V; destruct V as [H V]
  | valid [] ?l => destruct l as [|? ?]; [clear V|exfalso; exact V]
  end.

(** ** get / tab *)
Section Gen.
  Context {A : Type} (d : A).
  Implicit Types t u : tensor A.

  Lemma wf_tab s (f : list nat -> A) : wf (tab s f).
  Proof. unfold wf, tab; cbn. now rewrite map_length, seq_length. Qed.
  Lemma shape_tab s (f : list nat -> A) : shape (tab s f) = s.
  Proof. reflexivity. Qed.
  Lemma flat_tab s (f : list nat -> A) k : k < numel s -> nth k (data (tab s f)) d = f (unravel s k).
  Proof.
    intros Hk. unfold tab; cbn.
    rewrite nth_indep with (d' := f (unravel s 0)) by now rewrite map_length, seq_length.
    change (f (unravel s 0)) with ((fun k => f (unravel s k)) 0).
    rewrite map_nth, seq_nth; auto.
  Qed.
  Lemma get_tab s (f : list nat -> A) idx : valid s idx -> get d (tab s f) idx = f idx.
  Proof.
    intros V. unfold get. rewrite shape_tab, flat_tab by now apply ravel_lt.
    now rewrite unravel_ravel.
  Qed.
  Lemma tab_ext s (f g : list nat -> A) :
    (forall idx, valid s idx -> f idx = g idx) -> tab s f = tab s g.
  Proof.
    intros E. unfold tab. f_equal. apply map_ext_in. intros k Hk. apply in_seq in Hk.
    apply E, unravel_valid. lia.
  Qed.
  Lemma tensor_ext t u :
    wf t -> wf u -> shape t = shape u ->
    (forall idx, valid (shape t) idx -> get d t idx = get d u idx) -> t = u.
  Proof.
    destruct t as [s l], u as [s' l']. unfold wf; cbn. intros W W' <- E. f_equal.
    apply nth_ext with (d := d) (d' := d); [congruence|].
    intros k Hk. rewrite W in Hk.
    specialize (E (unravel s k) (unravel_valid _ _ Hk)). unfold get in E; cbn in E.
    rewrite ravel_unravel in E; auto.
  Qed.
  Lemma tab_eta t : wf t -> tab (shape t) (get d t) = t.
  Proof.
    intros W. apply tensor_ext; auto using wf_tab.
    intros idx V. rewrite shape_tab in V. now rewrite get_tab.
  Qed.
  Lemma tab_eq t s f :
    wf t -> shape t = s -> (forall idx, valid s idx -> get d t idx = f idx) -> t = tab s f.
  Proof.
    intros W <- E. rewrite <- (tab_eta t W) at 1. now apply tab_ext.
  Qed.

  Lemma shape_eqb_refl s : shape_eqb s s = true.
  Proof. unfold shape_eqb. destruct list_eq_dec; congruence. Qed.
  Lemma shape_eqb_true s s' : shape_eqb s s' = true <-> s = s'.
  Proof. unfold shape_eqb. destruct list_eq_dec; split; congruence. Qed.

  (** curried *)
  Lemma get_tab1 n (f : nat -> A) i : i < n -> get d (tab1 n f) [i] = f i.
  Proof. intros. unfold tab1. rewrite get_tab; cbn; auto. Qed.
  Lemma get_tab2 n m (f : nat -> nat -> A) i j : i < n -> j < m -> get d (tab2 n m f) [i; j] = f i j.
  Proof. intros. unfold tab2. rewrite get_tab; cbn; auto. Qed.
  Lemma get_tab3 n m p (f : nat -> nat -> nat -> A) i j k :
    i < n -> j < m -> k < p -> get d (tab3 n m p f) [i; j; k] = f i j k.
  Proof. intros. unfold tab3. rewrite get_tab; cbn; auto. Qed.
  Lemma get_tab4 n m p q (f : nat -> nat -> nat -> nat -> A) i j k l :
    i < n -> j < m -> k < p -> l < q -> get d (tab4 n m p q f) [i; j; k; l] = f i j k l.
  Proof. intros. unfold tab4. rewrite get_tab; cbn; auto. Qed.
  Lemma tab1_ext n (f g : nat -> A) : (forall i, i < n -> f i = g i) -> tab1 n f = tab1 n g.
  Proof. intros E. apply tab_ext. intros idx V. didx idx V. cbn. auto. Qed.
  Lemma tab2_ext n m (f g : nat -> nat -> A) :
    (forall i j, i < n -> j < m -> f i j = g i j) -> tab2 n m f = tab2 n m g.
  Proof. intros E. apply tab_ext. intros idx V. didx idx V. cbn. auto. Qed.
  Lemma tab3_ext n m p (f g : nat -> nat -> nat -> A) :
    (forall i j k, i < n -> j < m -> k < p -> f i j k = g i j k) -> tab3 n m p f = tab3 n m p g.
  Proof. intros E. apply tab_ext. intros idx V. didx idx V. cbn. auto. Qed.
  Lemma tab4_ext n m p q (f g : nat -> nat -> nat -> nat -> A) :
    (forall i j k l, i < n -> j < m -> k < p -> l < q -> f i j k l = g i j k l) ->
    tab4 n m p q f = tab4 n m p q g.
  Proof. intros E. apply tab_ext. intros idx V. didx idx V. cbn. auto. Qed.
  Lemma tab1_eq t n f : wf t -> shape t = [n] -> (forall i, i < n -> get d t [i] = f i) -> t = tab1 n f.
  Proof. intros W S E. apply tab_eq; auto. intros idx V. didx idx V. cbn. auto. Qed.
  Lemma tab2_eq t n m f : wf t -> shape t = [n; m] ->
    (forall i j, i < n -> j < m -> get d t [i; j] = f i j) -> t = tab2 n m f.
  Proof. intros W S E. apply tab_eq; auto. intros idx V. didx idx V. cbn. auto. Qed.
  Lemma tab3_eq t n m p f : wf t -> shape t = [n; m; p] ->
    (forall i j k, i < n -> j < m -> k < p -> get d t [i; j; k] = f i j k) -> t = tab3 n m p f.
  Proof. intros W S E. apply tab_eq; auto. intros idx V. didx idx V. cbn. auto. Qed.
  Lemma tab4_eq t n m p q f : wf t -> shape t = [n; m; p; q] ->
    (forall i j k l, i < n -> j < m -> k < p -> l < q -> get d t [i; j; k; l] = f i j k l) -> t = tab4 n m p q f.
  Proof. intros W S E. apply tab_eq; auto. intros idx V. didx idx V. cbn. auto. Qed.

  (** ** reshape *)
  Lemma reshape_ok s t : numel s = numel (shape t) -> reshape s t = Ok (mkT s (data t)).
  Proof. intros E. unfold reshape. now rewrite E, Nat.eqb_refl. Qed.
  (** re-reading row-major data under another shape; [phi] maps new indices to old ones *)
  Lemma mkT_tab s s' (f g : list nat -> A) (phi : list nat -> list nat) :
    numel s = numel s' ->
    (forall idx, valid s' idx -> valid s (phi idx) /\ ravel s (phi idx) = ravel s' idx /\ f (phi idx) = g idx) ->
    mkT s' (data (tab s f)) = tab s' g.
  Proof.
    intros N P. unfold tab; cbn. f_equal. rewrite N. apply map_ext_in.
    intros k Hk. apply in_seq in Hk.
    destruct (P (unravel s' k)) as (V & R & E); [apply unravel_valid; lia|].
    rewrite ravel_unravel in R by lia.
    rewrite <- E. f_equal. rewrite <- R at 1. now apply unravel_ravel.
  Qed.
  Lemma reshape_tab s s' (f g : list nat -> A) (phi : list nat -> list nat) :
    numel s = numel s' ->
    (forall idx, valid s' idx -> valid s (phi idx) /\ ravel s (phi idx) = ravel s' idx /\ f (phi idx) = g idx) ->
    reshape s' (tab s f) = Ok (tab s' g).
  Proof.
    intros N P. rewrite reshape_ok by (rewrite shape_tab; auto). f_equal. now apply mkT_tab with phi.
  Qed.
  Lemma reshape_eq s' t (g : list nat -> A) (phi : list nat -> list nat) :
    wf t -> numel (shape t) = numel s' ->
    (forall idx, valid s' idx -> valid (shape t) (phi idx) /\ ravel (shape t) (phi idx) = ravel s' idx
                               /\ get d t (phi idx) = g idx) ->
    reshape s' t = Ok (tab s' g).
  Proof.
    intros W N P. rewrite <- (tab_eta t W) at 1. now apply reshape_tab with phi.
  Qed.
  Lemma reshape_m1_eq s t n :
    numel s <> 0 -> numel (shape t) = numel s * n -> reshape_m1 s t = reshape (s ++ [n]) t.
  Proof.
    intros Z E. unfold reshape_m1, reshape. apply Nat.eqb_neq in Z as Z'. rewrite Z', E.
    rewrite Nat.mul_comm, Nat.mod_mul, Nat.div_mul by auto. cbn.
    rewrite numel_app, numel_cons, numel_nil. replace (numel s * (n * 1)) with (n * numel s) by lia.
    now rewrite Nat.eqb_refl.
  Qed.
  Lemma reshape_1m_eq s t n :
    numel s <> 0 -> numel (shape t) = n * numel s -> reshape_1m s t = reshape (n :: s) t.
  Proof.
    intros Z E. unfold reshape_1m, reshape. apply Nat.eqb_neq in Z as Z'. rewrite Z', E.
    rewrite Nat.mod_mul, Nat.div_mul by auto. cbn.
    rewrite numel_cons. now rewrite Nat.eqb_refl.
  Qed.
  Lemma wf_mkT_reshape s t : wf t -> numel s = numel (shape t) -> wf (mkT s (data t)).
  Proof. unfold wf; cbn. intros W E. now rewrite W, E. Qed.

  (** ** slices and concatenation *)
  Lemma wf_slice k a e t u : slice d k a e t = Ok u -> wf u.
  Proof. unfold slice. destruct Nat.ltb; intros E; inversion E; apply wf_tab. Qed.
  Lemma slice1_2 t b n a m : shape t = [b; n] -> a + m <= n ->
    slice d 1 a (a + m) t = Ok (tab2 b m (fun i j => get d t [i; a + j])).
  Proof.
    intros S L. unfold slice, rank, dim. rewrite S. cbn.
    rewrite Nat.min_l, Nat.min_l by lia. replace (a + m - a) with m by lia.
    reflexivity.
  Qed.
  Lemma slice1_3 t b n p a m : shape t = [b; n; p] -> a + m <= n ->
    slice d 1 a (a + m) t = Ok (tab3 b m p (fun i j k => get d t [i; a + j; k])).
  Proof.
    intros S L. unfold slice, rank, dim. rewrite S. cbn.
    rewrite Nat.min_l, Nat.min_l by lia. replace (a + m - a) with m by lia.
    reflexivity.
  Qed.
  Lemma slice2_3 t b n p a m : shape t = [b; n; p] -> a + m <= p ->
    slice d 2 a (a + m) t = Ok (tab3 b n m (fun i j k => get d t [i; j; a + k])).
  Proof.
    intros S L. unfold slice, rank, dim. rewrite S. cbn.
    rewrite Nat.min_l, Nat.min_l by lia. replace (a + m - a) with m by lia.
    reflexivity.
  Qed.

  Lemma cat1_2 t u b n m : shape t = [b; n] -> shape u = [b; m] ->
    cat d 1 [t; u] = Ok (tab2 b (n + m) (fun i j => if j <? n then get d t [i; j] else get d u [i; j - n])).
  Proof.
    intros S S'. unfold cat, rank, dim. cbn [forallb map]. rewrite S, S'.
    change (1 <? length [b; n]) with true. cbn -[Nat.ltb]. unfold shape_eqb.
    destruct list_eq_dec; [|congruence]. cbn -[Nat.ltb]. rewrite Nat.add_0_r. f_equal.
    apply tab_ext. intros idx V. didx idx V. cbn -[Nat.ltb].
    unfold dim. rewrite S, S'. cbn -[Nat.ltb].
    repeat match goal with |- context [?a <? ?b] => destruct (Nat.ltb_spec a b); try lia; cbn -[Nat.ltb] end; auto.
  Qed.
  Lemma cat1_3 t u b n m p : shape t = [b; n; p] -> shape u = [b; m; p] ->
    cat d 1 [t; u] = Ok (tab3 b (n + m) p (fun i j k => if j <? n then get d t [i; j; k] else get d u [i; j - n; k])).
  Proof.
    intros S S'. unfold cat, rank, dim. cbn [forallb map]. rewrite S, S'.
    change (1 <? length [b; n; p]) with true. cbn -[Nat.ltb]. unfold shape_eqb.
    destruct list_eq_dec; [|congruence]. cbn -[Nat.ltb]. rewrite Nat.add_0_r. f_equal.
    apply tab_ext. intros idx V. didx idx V. cbn -[Nat.ltb].
    unfold dim. rewrite S, S'. cbn -[Nat.ltb].
    repeat match goal with |- context [?a <? ?b] => destruct (Nat.ltb_spec a b); try lia; cbn -[Nat.ltb] end; auto.
  Qed.
  Lemma cat2_3 t u b n m p : shape t = [b; p; n] -> shape u = [b; p; m] ->
    cat d 2 [t; u] = Ok (tab3 b p (n + m) (fun i k j => if j <? n then get d t [i; k; j] else get d u [i; k; j - n])).
  Proof.
    intros S S'. unfold cat, rank, dim. cbn [forallb map]. rewrite S, S'.
    change (2 <? length [b; p; n]) with true. cbn -[Nat.ltb]. unfold shape_eqb.
    destruct list_eq_dec; [|congruence]. cbn -[Nat.ltb]. rewrite Nat.add_0_r. f_equal.
    apply tab_ext. intros idx V. didx idx V. cbn -[Nat.ltb].
    unfold dim. rewrite S, S'. cbn -[Nat.ltb].
    repeat match goal with |- context [?a <? ?b] => destruct (Nat.ltb_spec a b); try lia; cbn -[Nat.ltb] end; auto.
  Qed.
  Lemma cat0_2 t u p n m : shape t = [n; p] -> shape u = [m; p] ->
    cat d 0 [t; u] = Ok (tab2 (n + m) p (fun j k => if j <? n then get d t [j; k] else get d u [j - n; k])).
  Proof.
    intros S S'. unfold cat, rank, dim. cbn [forallb map]. rewrite S, S'.
    change (0 <? length [n; p]) with true. cbn -[Nat.ltb]. unfold shape_eqb.
    destruct list_eq_dec; [|congruence]. cbn -[Nat.ltb]. rewrite Nat.add_0_r. f_equal.
    apply tab_ext. intros idx V. didx idx V. cbn -[Nat.ltb].
    unfold dim. rewrite S, S'. cbn -[Nat.ltb].
    repeat match goal with |- context [?a <? ?b] => destruct (Nat.ltb_spec a b); try lia; cbn -[Nat.ltb] end; auto.
  Qed.
  Lemma transpose12_ok t b n m : shape t = [b; n; m] ->
    transpose12 d t = Ok (tab3 b m n (fun i j k => get d t [i; k; j])).
  Proof. intros S. unfold transpose12. now rewrite S. Qed.
End Gen.
