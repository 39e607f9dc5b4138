(** The parameter vector of a network whose layer objects may be shared. *)
From Coq Require Import List Arith Lia Bool.
From Verif Require Import Scalar Tensor Module Domain Params Objects ObjectsSpec ObjBase.
Import ListNotations.
Local Open Scope nat_scope.

Section ObjParams.
  Context {K} `{NK : Num K}.
  Notation T := (tensor K).

  Fixpoint leaves (m : node K) : list (nat * leaf K) :=
    match m with
    | OLeaf o l => [(o, l)]
    | OPool _ _ => []
    | OSeq _ _ ms => flat_map leaves ms
    | OSkip _ F => leaves F
    end.
  Fixpoint lp (ls : list (nat * leaf K)) (seen : list nat) : list nat * list T :=
    match ls with
    | [] => (seen, [])
    | (o, l) :: ls => if existsb (Nat.eqb o) seen then lp ls seen else let '(s, b) := lp ls (o :: seen) in (s, leaf_params l ++ b)
    end.
  Lemma lp_app a : forall b seen, lp (a ++ b) seen = let '(s, u) := lp a seen in let '(s, v) := lp b s in (s, u ++ v).
  Proof.
    induction a as [|[o l] a IH]; intros b seen; cbn; [now destruct (lp b seen)|]. destruct existsb; auto. rewrite IH.
    destruct (lp a (o :: seen)) as [s u]. destruct (lp b s). now rewrite app_assoc.
  Qed.
  Lemma oparams_lp : forall (m : node K) seen, oparams m seen = lp (leaves m) seen.
  Proof.
    refine (node_ind2 (fun m => forall seen, oparams m seen = lp (leaves m) seen)
      (fun ms => forall seen, (fix go (ms : list (node K)) (seen : list nat) : list nat * list T :=
           match ms with
           | [] => (seen, [])
           | m :: ms => let '(seen, a) := oparams m seen in let '(seen, b) := go ms seen in (seen, (a ++ b)%list)
           end) ms seen = lp (flat_map leaves ms) seen) _ _ _ _ _ _); intros; cbn; auto.
    - destruct existsb; auto. now rewrite app_nil_r.
    - rewrite lp_app. rewrite H. destruct (lp (leaves m) seen) as [s u]. rewrite H0. reflexivity.
  Qed.
  Definition wp (ls : list (nat * leaf K)) : list nat := flat_map (fun p => if leaf_n_params (snd p) =? 0 then [] else [fst p]) ls.
  Lemma flat_map_app' {A B} (f : A -> list B) a b : flat_map f (a ++ b) = flat_map f a ++ flat_map f b.
  Proof. induction a; cbn; auto. now rewrite IHa, app_assoc. Qed.
  Lemma wp_leaves : forall m : node K, with_params m = wp (leaves m).
  Proof.
    refine (node_ind2 (fun m => with_params m = wp (leaves m)) (fun ms => flat_map with_params ms = wp (flat_map leaves ms)) _ _ _ _ _ _); intros; cbn; auto.
    - now destruct (_ =? 0).
    - unfold wp in *. rewrite flat_map_app'. congruence.
  Qed.
  Definition np (ls : list (nat * leaf K)) : nat := fold_right (fun p n => leaf_n_params (snd p) + n) 0 ls.
  Lemma np_app a b : np (a ++ b) = np a + np b.
  Proof. unfold np. induction a; cbn; auto. rewrite IHa. lia. Qed.
  Lemma np_leaves : forall m : node K, n_params (erase m) = np (leaves m).
  Proof.
    refine (node_ind2 (fun m => n_params (erase m) = np (leaves m))
      (fun ms => fold_right (fun m n => n_params m + n) 0 (map erase ms) = np (flat_map leaves ms)) _ _ _ _ _ _); intros; cbn; auto.
    rewrite np_app. congruence.
  Qed.
  Lemma leaves_sized : forall m : node K, sized (erase m) -> Forall (fun p => leaf_sized (snd p)) (leaves m).
  Proof.
    refine (node_ind2 (fun m => sized (erase m) -> Forall (fun p => leaf_sized (snd p)) (leaves m))
      (fun ms => sized_seq (map erase ms) -> Forall (fun p => leaf_sized (snd p)) (flat_map leaves ms)) _ _ _ _ _ _); intros; cbn; auto.
    destruct H1. apply Forall_app. auto.
  Qed.
  Lemma leaves_nodes : forall (m : node K) p, In p (leaves m) -> In (OLeaf (fst p) (snd p)) (nodes m).
  Proof.
    refine (node_ind2 (fun m => forall p, In p (leaves m) -> In (OLeaf (fst p) (snd p)) (nodes m))
      (fun ms => forall p, In p (flat_map leaves ms) -> In (OLeaf (fst p) (snd p)) (flat_map nodes ms)) _ _ _ _ _ _); cbn; intros; auto.
    - destruct H as [<-|[]]. auto.
    - rewrite in_app_iff in *. intuition.
  Qed.
  Definition coh (ls : list (nat * leaf K)) : Prop := forall o l l', In (o, l) ls -> In (o, l') ls -> l = l'.
  Lemma objects_coh (m : node K) : objects m -> coh (leaves m).
  Proof. intros O o l l' I I'. apply leaves_nodes in I, I'. cbn in *. pose proof (O _ _ I I' eq_refl). congruence. Qed.
  Definition dlen (ps : list T) : nat := length (flat_map (@data K) ps).
  Lemma dlen_app a b : dlen (a ++ b) = dlen a + dlen b.
  Proof. unfold dlen. now rewrite flat_map_app', app_length. Qed.

  Lemma seen_in o seen : existsb (Nat.eqb o) seen = true <-> In o seen.
  Proof.
    rewrite existsb_exists. split; [intros (z & I & E); apply Nat.eqb_eq in E; now subst|]. intros I. exists o. split; auto. apply Nat.eqb_refl.
  Qed.
  Lemma lp_len ls : coh ls -> Forall (fun p => leaf_sized (snd p)) ls -> forall seen,
    dlen (snd (lp ls seen)) <= np ls /\
    (dlen (snd (lp ls seen)) = np ls <-> NoDup (wp ls) /\ forall z, In z seen -> ~ In z (wp ls)).
  Proof.
    induction ls as [|[o l] ls IH]; intros C F seen.
    - cbn. split; auto. split; auto. intros _. split; auto. constructor.
    - assert (C' : coh ls) by (intros z a c Ia Ic; apply (C z); now right). inversion F as [|? ? F1 F2]; subst. cbn [snd] in F1.
      specialize (IH C' F2). pose proof (leaf_len l F1) as L. fold (dlen (leaf_params l)) in L. cbn [lp np fold_right snd wp flat_map fst].
      fold (np ls). fold (wp ls). destruct (existsb (Nat.eqb o) seen) eqn:E.
      + apply seen_in in E. destruct (IH seen) as [I1 I2]. split; [lia|]. destruct (Nat.eqb_spec (leaf_n_params l) 0) as [Z|Z].
        * rewrite Z. exact I2.
        * split; [intros; lia|]. intros [_ D]. exfalso. apply (D o E). now left.
      + assert (E' : ~ In o seen) by (rewrite <- seen_in; congruence). destruct (IH (o :: seen)) as [I1 I2]. destruct (lp ls (o :: seen)) as [s u]. cbn [snd] in *.
        rewrite dlen_app, L. split; [lia|]. transitivity (dlen u = np ls); [lia|]. rewrite I2.
        destruct (Nat.eqb_spec (leaf_n_params l) 0) as [Z|Z]; cbn [app].
        * split; intros [A D]; split; auto; intros z Iz; [apply D; now right|]. destruct Iz as [<-|Iz]; auto.
          intros J. unfold wp in J. apply in_flat_map in J. destruct J as ([o' l'] & J1 & J2). cbn in J2.
          destruct (Nat.eqb_spec (leaf_n_params l') 0) as [|n]; [contradiction|]. destruct J2 as [->|[]]. rewrite <- (C o l l') in n; [contradiction|now left|now right].
        * rewrite NoDup_cons_iff. split; intros.
          -- destruct H as [A D]. repeat split; auto; [apply D; now left|]. intros z Iz [<-|J]; [auto|]. apply (D z); auto. now right.
          -- destruct H as [[A1 A2] D]. split; auto. intros z [<-|Iz]; auto. intros J. apply (D z Iz). now right.
  Qed.

  Lemma oweight_size (m : node K) w : objects m -> sized (erase m) -> oget_weight m = Ok w ->
    wf w /\ exists n, shape w = [n] /\ n <= n_params (erase m) /\ (n = n_params (erase m) <-> NoDup (with_params m)).
  Proof.
    intros O S. unfold oget_weight. rewrite oparams_lp. pose proof (lp_len _ (objects_coh m O) (leaves_sized m S) []) as [A D].
    rewrite <- np_leaves, <- wp_leaves in *. destruct (snd (lp (leaves m) [])) as [|t ts]; [discriminate|]. intros [= <-]. cbv zeta.
    split; [unfold wf, numel; cbn; lia|]. exists (dlen (t :: ts)). split; [reflexivity|]. split; [exact A|]. rewrite D. cbn. tauto.
  Qed.
End ObjParams.
