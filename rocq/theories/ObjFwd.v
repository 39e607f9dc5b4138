(** The forward products of the object model compute what the tree model computes. *)
From Coq Require Import String Ascii List Arith ZArith Lia Bool.
From Verif Require Import Scalar Tensor Conv Abstract Simple LinearLayer ConvLayer PoolLayer Module Domain HooksSpec Hooks Objects ObjectsSpec ObjBase ObjBack.
Import ListNotations.
Local Open Scope nat_scope.
Local Open Scope list_scope.

Section ObjFwd.
  Context {K} `{NK : Num K}.
  Notation T := (tensor K).
  Variable H : nat -> list nat.

  (** a call is a forward pass and then hooks *)
  Lemma call_ok (m : node K) g x g1 r : call H (oforward H) m g x = (g1, r) -> forall k, snd (forward (erase m) k x) = r.
  Proof.
    unfold call. intros E k. pose proof (oforward_pure H m g k x) as P. destruct oforward as [g0 r0]. cbn in P. subst r0.
    destruct forward as [k1 r1]. cbn in *. destruct r1; now injection E.
  Qed.

  (** *** jvp: any sharing *)
  Lemma ojvp_any : forall (m : node K) g s x val v w, snd (ojvp H m g x val v w) = snd (jvp (erase m) s x val v w).
  Proof.
    refine (node_ind2 (fun m => forall g s x val v w, snd (ojvp H m g x val v w) = snd (jvp (erase m) s x val v w))
      (fun ms => forall h g ks fm x v,
         snd (oseq_jvp_in H (ojvp H) ms g x v) = snd (seq_jvp_in jvp h (map erase ms) ks x fm v) /\
         forall p acc, snd (oseq_jvp_w H (ojvp H) ms g x v p acc) = snd (seq_jvp_w jvp h (map erase ms) ks x fm v p acc)) _ _ _ _ _ _).
    - reflexivity.
    - reflexivity.
    - intros o h ms IH g s x val v w. cbn [ojvp erase jvp]. destruct (IH h g (st_kids s) (st_fm s) x v) as [I1 I2]. destruct w; [| |reflexivity].
      + destruct oseq_jvp_in, seq_jvp_in as [[? ?] ?]. cbn in *. now rewrite I1.
      + specialize (I2 0 None). destruct oseq_jvp_w, seq_jvp_w as [[? ?] ?]. exact I2.
    - intros o F IH g s x val v w. cbn [ojvp erase jvp].
      match goal with |- snd (match ?Z with _ => _ end) = _ => destruct Z as [[[b l] t]|] end; [|reflexivity].
      specialize (IH g (st_kid s) x t v w). destruct ojvp, jvp. cbn in *. now rewrite IH.
    - split; reflexivity.
    - intros m ms IHm IHs h g ks fm x v. cbn [oseq_jvp_in seq_jvp_in oseq_jvp_w seq_jvp_w map]. destruct (kid_split ks) as [k l].
      destruct (call H (oforward H) m g x) as [g1 r] eqn:C. pose proof (call_ok _ _ _ _ _ C k) as P. destruct (forward (erase m) k x) as [k1 r']. cbn in P. subst r'.
      destruct r as [y|]; [|split; reflexivity]. cbv zeta. split.
      + pose proof (IHm g1 k1 x (Some y) v Input) as J. destruct ojvp as [g2 r], jvp as [k2 r']. cbn in J. subst r'.
        match goal with |- snd (match ?Z with _ => _ end) = _ => destruct Z as [v1|] end; [|reflexivity].
        destruct (IHs h g2 l (hook_push h fm y) y v1) as [I1 _]. destruct oseq_jvp_in, seq_jvp_in as [[? ?] ?]. exact I1.
      + intros p acc.
        assert (E : exists g2 k2 r, (match acc with None => (g1, Ok None) | Some a => ojvp H m g1 x (Some y) a Input end) = (g2, r) /\
          (match acc with None => (k1, Ok None) | Some a => jvp (erase m) k1 x (Some y) a Input end) = (k2, r)).
        { destruct acc as [a|]; [|eauto 10]. pose proof (IHm g1 k1 x (Some y) a Input) as J. destruct ojvp as [g2 r], jvp as [k2 r']. cbn in J. subst r'. eauto 10. }
        destruct E as (g2 & k2 & r & -> & ->).
        match goal with |- snd (match ?Z with _ => _ end) = _ => destruct Z as [[acc1 vp]|] end; [|reflexivity].
        pose proof (IHm g2 k2 x (Some y) vp Weight) as J. destruct ojvp as [g3 r3], jvp as [k3 r3']. cbn in J. subst r3'.
        match goal with |- snd (match ?Z with _ => _ end) = _ => destruct Z as [acc2|] end; [|reflexivity].
        destruct (IHs h g3 l (hook_push h fm y) y v) as [_ I2]. specialize (I2 (p + n_params (erase m)) acc2).
        destruct oseq_jvp_w, seq_jvp_w as [[? ?] ?]. exact I2.
  Qed.

  (** *** jmp with a matrix: any sharing *)
  Fixpoint top_ok (m : node K) (g : heap K) (s : st K) : Prop :=
    match m with
    | OLeaf _ _ | OSeq _ _ _ => True
    | OPool o _ => h_idx g o = st_idx s
    | OSkip _ F => top_ok F g (st_kid s)
    end.
  Lemma top_push m (y : T) l : forall g s, top_ok m g s -> top_ok m (fold_left (push y) l g) s.
  Proof. induction m; cbn; auto. intros. now rewrite push_idx. Qed.
  Lemma oforward_top : forall m g s x y, snd (forward (erase m) s x) = Ok y -> top_ok m (fst (oforward H m g x)) (fst (forward (erase m) s x)).
  Proof.
    induction m as [o l|o c|o h ms|o F IH]; intros g s x y; cbn; auto.
    - destruct max_pool2d as [[v i]|]; cbn; [|discriminate]. intros _. now rewrite Nat.eqb_refl.
    - unfold call. pose proof (oforward_pure H F g (st_kid s) x) as P. specialize (IH g (st_kid s) x).
      destruct oforward as [g1 r], forward as [k r']. cbn in *. subst r'. destruct r as [z|]; cbn; [|discriminate]. intros _.
      apply top_push. eapply IH. reflexivity.
  Qed.
  Lemma call_top (m : node K) g s x y : snd (call H (oforward H) m g x) = Ok y ->
    top_ok m (fst (call H (oforward H) m g x)) (fst (forward (erase m) s x)).
  Proof.
    intros E. destruct (call H (oforward H) m g x) as [g1 r] eqn:C. cbn in E. subst r. pose proof (call_ok _ _ _ _ _ C s) as P.
    unfold call in C. pose proof (oforward_top m g s x y P) as Q. destruct oforward as [g0 [z|]]; [|discriminate]. injection C as <- _. cbn. now apply top_push.
  Qed.
  Lemma ojmp_top : forall m g s x y mt w, top_ok m g s ->
    top_ok m (fst (ojmp H m g x (Some y) (Some mt) w)) (fst (jmp (erase m) s x (Some y) (Some mt) w)).
  Proof.
    induction m as [o l|o c|o h ms|o F IH]; intros g s x y mt w A; cbn; auto.
    - destruct w; exact A.
    - match goal with |- top_ok _ (fst (match ?Z with _ => _ end)) _ => destruct Z as [[[b l] t]|] eqn:E end; [|exact A].
      assert (Et : exists t0, t = Some t0).
      { destruct (size 0 x); cbn in E; [|discriminate]. destruct (numel0 x); cbn in E; [|discriminate]. unfold some in E.
        destruct slice_from; cbn in E; [|discriminate]. injection E as _ _ <-. eauto. }
      destruct Et as [t0 ->]. specialize (IH g (st_kid s) x t0 mt w A). destruct ojmp, jmp. exact IH.
  Qed.
  Lemma answers_nonnone (m : module K) : answers m -> forall s x val v, snd (jmp m s x val (Some v) Input) <> Ok None.
  Proof. intros A. exact (proj2 (proj2 (jmp_hooked m A))). Qed.

  Lemma ojmp_any : forall m : node K, answers (erase m) -> forall g s x val mt w, val = None \/ top_ok m g s ->
    snd (ojmp H m g x val (Some mt) w) = snd (jmp (erase m) s x val (Some mt) w).
  Proof.
    refine (node_ind2 (fun m => answers (erase m) -> forall g s x val mt w, val = None \/ top_ok m g s ->
        snd (ojmp H m g x val (Some mt) w) = snd (jmp (erase m) s x val (Some mt) w))
      (fun ms => answers (Seq true (map erase ms)) -> forall h g ks fm x v,
         snd (oseq_jmp_in H (ojmp H) ms g x (Some v)) = snd (seq_jmp_in jmp h (map erase ms) ks x fm (Some v)) /\
         forall p acc, snd (oseq_jmp_w H (ojmp H) ms g x v p acc) = snd (seq_jmp_w jmp h (map erase ms) ks x fm v p acc)) _ _ _ _ _ _).
    - reflexivity.
    - intros o c _ g s x val mt w V. cbn. destruct w; auto. destruct val as [y|]; cbn.
      + destruct V as [V|V]; [discriminate|]. cbn in V. now rewrite V.
      + destruct max_pool2d as [[v i]|]; cbn; auto. now rewrite Nat.eqb_refl.
    - intros o h ms IH An g s x val mt w _. cbn [ojmp erase jmp]. destruct (IH An h g (st_kids s) (st_fm s) x mt) as [I1 I2]. destruct w; cbn [wrt_ok]; [| |reflexivity].
      + destruct oseq_jmp_in, seq_jmp_in as [[? ?] ?]. exact I1.
      + specialize (I2 0 None). destruct oseq_jmp_w, seq_jmp_w as [[? ?] ?]. exact I2.
    - intros o F IH An g s x val mt w V. cbn [ojmp erase jmp].
      match goal with |- snd (match ?Z with _ => _ end) = _ => destruct Z as [[[b l] t]|] eqn:E end; [|reflexivity].
      assert (V' : t = None \/ top_ok F g (st_kid s)).
      { destruct V as [->|V]; [|now right]. left. cbn [val_tail] in E. destruct (size 0 x); cbn in E; [|discriminate]. destruct (numel0 x); cbn in E; [|discriminate].
        now injection E as _ _ <-. }
      specialize (IH An g (st_kid s) x t mt w V'). destruct ojmp, jmp. cbn in *. now rewrite IH.
    - split; reflexivity.
    - intros m ms IHm IHs [Am As] h g ks fm x v. specialize (IHm Am). specialize (IHs As).
      cbn [oseq_jmp_in seq_jmp_in oseq_jmp_w seq_jmp_w map]. destruct (kid_split ks) as [k l].
      pose proof (call_top m g k x) as Tp.
      destruct (call H (oforward H) m g x) as [g1 r] eqn:C. pose proof (call_ok _ _ _ _ _ C k) as P. destruct (forward (erase m) k x) as [k1 r']. cbn in P. subst r'.
      destruct r as [y|]; [|split; reflexivity]. cbn [fst snd] in Tp. specialize (Tp y eq_refl). cbv zeta. split.
      + pose proof (answers_nonnone _ Am k1 x (Some y) v) as Nn.
        pose proof (IHm g1 k1 x (Some y) v Input (or_intror Tp)) as J. destruct ojmp as [g2 r], jmp as [k2 r']. cbn in J, Nn. subst r'.
        destruct r as [[v1|]|]; [|now destruct Nn|reflexivity].
        destruct (IHs h g2 l (hook_push h fm y) y v1) as [I1 _]. destruct oseq_jmp_in, seq_jmp_in as [[? ?] ?]. exact I1.
      + intros p acc.
        assert (E : exists g2 k2 r, (match acc with None => (g1, Ok None) | Some a => ojmp H m g1 x (Some y) (Some a) Input end) = (g2, r) /\
          (match acc with None => (k1, Ok None) | Some a => jmp (erase m) k1 x (Some y) (Some a) Input end) = (k2, r) /\ top_ok m g2 k2).
        { destruct acc as [a|]; [|eauto 10]. pose proof (IHm g1 k1 x (Some y) a Input (or_intror Tp)) as J.
          pose proof (ojmp_top m g1 k1 x y a Input Tp) as Q. destruct ojmp as [g2 r], jmp as [k2 r']. cbn in J, Q. subst r'. eauto 10. }
        destruct E as (g2 & k2 & r & -> & -> & T2).
        match goal with |- snd (match ?Z with _ => _ end) = _ => destruct Z as [[acc1 vp]|] end; [|reflexivity].
        pose proof (IHm g2 k2 x (Some y) vp Weight (or_intror T2)) as J. destruct ojmp as [g3 r3], jmp as [k3 r3']. cbn in J. subst r3'.
        match goal with |- snd (match ?Z with _ => _ end) = _ => destruct Z as [acc2|] end; [|reflexivity].
        destruct (IHs h g3 l (hook_push h fm y) y v) as [_ I2]. specialize (I2 (p + n_params (erase m)) acc2).
        destruct oseq_jmp_w, seq_jmp_w as [[? ?] ?]. exact I2.
  Qed.
End ObjFwd.
