(** Main lemmas on shared layer objects. *)
From Coq Require Import String Ascii List Arith ZArith Lia Bool.
From Verif Require Import Scalar Tensor Conv Abstract Simple LinearLayer ConvLayer PoolLayer Module Domain HooksSpec Hooks Objects ObjectsSpec ObjBase ObjBack ObjFwd ObjPush.
Import ListNotations.
Local Open Scope nat_scope.
Local Open Scope list_scope.

Section ObjMain.
  Context {K} `{NK : Num K}.
  Notation T := (tensor K).
  Variable H : nat -> list nat.

  Lemma sharing_sep : forall m : node K, registered H m -> sharing_ok m -> sep H m.
  Proof.
    intros m R [N S]. revert m R N S. unfold registered.
    refine (node_ind2 (fun m => every_seq _ m -> NoDup (stateful m) -> every_seq _ m -> sep H m)
      (fun ms => (fix go l := match l with [] => True | m :: l => every_seq _ m /\ go l end) ms -> NoDup (flat_map stateful ms) ->
         (fix go l := match l with [] => True | m :: l => every_seq _ m /\ go l end) ms -> sep_l H ms) _ _ _ _ _ _); try (cbn; auto; fail).
    - intros o h ms IH [R1 R2] N [S1 S2]. cbn in N. apply NoDup_cons_iff in N. destruct N as [N1 N2]. cbn [sep]. split.
      + split; [exact N1|split; [exact N2|]]. intros Hh c Ic. destruct (S1 Hh) as [D1 D2]. split.
        * rewrite R1, Hh; [|apply in_flat_map; exists c; split; auto; rewrite ids_cons; now left]. apply NoDup_count_occ'; auto. now apply in_map.
        * intros z Iz J. apply (D2 c z Ic Iz). apply (count_occ_In Nat.eq_dec) in J.
          rewrite R1, Hh in J; [|apply in_flat_map; exists c; split; auto; rewrite ids_cons; now right]. now apply (count_occ_In Nat.eq_dec).
      + specialize (IH R2 N2 S2). clear -IH. induction ms; cbn in *; tauto.
    - intros m ms IHm IHs [R1 R2] N [S1 S2]. cbn in N. apply nodup_app in N. destruct N as (N1 & N2 & _). split; auto.
  Qed.

  (** *** val=None *)
  Section Sep.
    Variable m0 : node K.
    Lemma ovjp_none : forall m, sep H m -> forall g s x v w, snd (ovjp H m g x None v w) = snd (vjp (erase m) s x None v w).
    Proof.
      induction m as [o l|o c|o h ms|o F IH]; intros S g s x v w.
      - reflexivity.
      - cbn. destruct w; auto. destruct max_pool2d as [[y i]|]; cbn; auto. now rewrite Nat.eqb_refl.
      - pose proof (oforward_pure H (OSeq o h ms) g s x) as P. pose proof (oforward_agrees H (OSeq o h ms) S g s x) as A.
        cbn [ovjp vjp erase oensure ensure]. destruct (wrt_ok w) eqn:W; [|reflexivity]. cbn [erase] in *.
        destruct (oforward H (OSeq o h ms) g x) as [g1 r], (forward (Seq h (map erase ms)) s x) as [s1 r']. cbn [fst snd] in *. subst r'.
        destruct r as [y|]; [|reflexivity]. pose proof (ovjp_keeps H (OSeq o h ms) g1 s1 x y v w (A y eq_refl)) as [_ [E _]].
        cbn [ovjp vjp erase oensure ensure] in E. rewrite W in E. exact E.
      - cbn [ovjp vjp erase]. cbn [val_tail]. destruct (numel0 x) as [l|]; [|reflexivity]. cbn [bind]. destruct (slice_from n0 1 l v) as [vt|]; [|reflexivity]. cbn [bind].
        specialize (IH S g (st_kid s) x vt w). destruct ovjp, vjp. cbn [snd] in *. now rewrite IH.
    Qed.
    Lemma omjp_none : forall m, sep H m -> forall g s x v w, snd (omjp H m g x None v w) = snd (mjp (erase m) s x None v w).
    Proof.
      induction m as [o l|o c|o h ms|o F IH]; intros S g s x v w.
      - reflexivity.
      - cbn. destruct v, w; auto; cbn; destruct max_pool2d as [[y i]|]; cbn; auto; now rewrite Nat.eqb_refl.
      - pose proof (oforward_pure H (OSeq o h ms) g s x) as P. pose proof (oforward_agrees H (OSeq o h ms) S g s x) as A.
        cbn [omjp mjp erase oensure ensure]. destruct (wrt_ok w) eqn:W; [|reflexivity]. cbn [erase] in *.
        destruct (oforward H (OSeq o h ms) g x) as [g1 r], (forward (Seq h (map erase ms)) s x) as [s1 r']. cbn [fst snd] in *. subst r'.
        destruct r as [y|]; [|reflexivity]. pose proof (omjp_keeps H (OSeq o h ms) g1 s1 x y v w (A y eq_refl)) as [_ [E _]].
        cbn [omjp mjp erase oensure ensure] in E. rewrite W in E. exact E.
      - cbn [omjp mjp erase]. destruct v as [mt|].
        + cbn [val_tail]. destruct (numel0 x) as [l|]; [|reflexivity]. cbn [bind]. destruct (slice_from n0 2 l mt) as [vt|]; [|reflexivity]. cbn [bind].
          specialize (IH S g (st_kid s) x (Some vt) w). destruct omjp, mjp. cbn [snd] in *. now rewrite IH.
        + unfold oskip_jacobian, skip_jacobian. specialize (IH S g (st_kid s) x None w). destruct omjp as [g1 r], mjp as [k r']. cbn [snd] in IH. subst r'.
          match goal with |- snd (match ?Z with _ => _ end) = _ => destruct Z as [[[jac b] l]|] end; [|reflexivity].
          cbn [oensure ensure]. pose proof (oforward_pure H (OSkip o F) g1 (set_kid s k) x) as P. cbn [erase] in P.
          destruct (oforward H (OSkip o F) g1 x), (forward (Skip (erase F)) (set_kid s k) x). cbn [snd] in *. now rewrite P.
    Qed.
    Lemma ojacobian_none : forall m, sep H m -> forall g s x w, snd (ojacobian H m g x None w) = snd (jacobian (erase m) s x None w).
    Proof.
      intros m S g s x w. destruct m as [o l|o c|o h ms|o F]; cbn [erase ojacobian jacobian].
      - reflexivity.
      - apply (omjp_none (OPool o c) S g s x None w).
      - apply (omjp_none (OSeq o h ms) S g s x None w).
      - apply (omjp_none (OSkip o F) S g s x None w).
    Qed.
    Lemma ojTmjp_none : forall m, sep H m -> forall g s x v w fd td db, snd (ojTmjp H m g x None v w fd td db) = snd (jTmjp (erase m) s x None v w fd td db).
    Proof.
      intros m S g s x v w fd td db. destruct m as [o l|o c|o h ms|o F].
      - reflexivity.
      - cbn. destruct max_pool2d as [[y i]|]; cbn; auto. now rewrite Nat.eqb_refl.
      - pose proof (oforward_pure H (OSeq o h ms) g s x) as P. pose proof (oforward_agrees H (OSeq o h ms) S g s x) as A.
        cbn [ojTmjp jTmjp erase oensure ensure]. destruct (db_ok fd td db) eqn:W; [|reflexivity]. cbn [erase] in *.
        destruct (oforward H (OSeq o h ms) g x) as [g1 r], (forward (Seq h (map erase ms)) s x) as [s1 r']. cbn [fst snd] in *. subst r'.
        destruct r as [y|]; [|reflexivity]. pose proof (ojTmjp_keeps H (OSeq o h ms) g1 s1 x y v w fd td db (A y eq_refl)) as [_ [E _]].
        cbn [ojTmjp jTmjp erase oensure ensure] in E. rewrite W in E. exact E.
      - pose proof (oforward_pure H (OSkip o F) g s x) as P. pose proof (oforward_agrees H (OSkip o F) S g s x) as A.
        cbn [ojTmjp jTmjp erase oensure ensure]. destruct (db_ok fd td db) eqn:W; [|reflexivity]. cbn [erase] in *.
        destruct (oforward H (OSkip o F) g x) as [g1 r], (forward (Skip (erase F)) s x) as [s1 r']. cbn [fst snd] in *. subst r'.
        destruct r as [y|]; [|reflexivity]. pose proof (ojTmjp_keeps H (OSkip o F) g1 s1 x y v w fd td db (A y eq_refl)) as [_ [E _]].
        cbn [ojTmjp jTmjp erase oensure ensure] in E. rewrite W in E. exact E.
    Qed.
    Lemma ojmjTp_none : forall m, sep H m -> forall g s x v w fd td db, snd (ojmjTp H m g x None v w fd td db) = snd (jmjTp (erase m) s x None v w fd td db).
    Proof.
      intros m S g s x v w fd td db. destruct m as [o l|o c|o h ms|o F].
      - reflexivity.
      - cbn. destruct max_pool2d as [[y i]|]; cbn; auto.
      - pose proof (oforward_pure H (OSeq o h ms) g s x) as P. pose proof (oforward_agrees H (OSeq o h ms) S g s x) as A.
        cbn [ojmjTp jmjTp erase oensure ensure]. destruct (db_ok fd td db) eqn:W; [|reflexivity]. cbn [erase] in *.
        destruct (oforward H (OSeq o h ms) g x) as [g1 r], (forward (Seq h (map erase ms)) s x) as [s1 r']. cbn [fst snd] in *. subst r'.
        destruct r as [y|]; [|reflexivity]. pose proof (ojmjTp_runs H (OSeq o h ms) S g1 s1 x y v w fd td db (A y eq_refl)) as [_ [E _]].
        cbn [ojmjTp jmjTp erase oensure ensure] in E. rewrite W in E. exact E.
      - pose proof (oforward_pure H (OSkip o F) g s x) as P. pose proof (oforward_agrees H (OSkip o F) S g s x) as A.
        cbn [ojmjTp jmjTp erase oensure ensure]. destruct (db_ok fd td db) eqn:W; [|reflexivity]. cbn [erase] in *.
        destruct (oforward H (OSkip o F) g x) as [g1 r], (forward (Skip (erase F)) s x) as [s1 r']. cbn [fst snd] in *. subst r'.
        destruct r as [y|]; [|reflexivity]. pose proof (ojmjTp_runs H (OSkip o F) S g1 s1 x y v w fd td db (A y eq_refl)) as [_ [E _]].
        cbn [ojmjTp jmjTp erase oensure ensure] in E. rewrite W in E. exact E.
    Qed.
    Lemma oseq_jmp_sep ms : sep_l H ms -> NoDup (flat_map stateful ms) -> forall h g ks fm x,
      (forall v, snd (oseq_jmp_in H (ojmp H) ms g x v) = snd (seq_jmp_in jmp h (map erase ms) ks x fm v)) /\
      (forall v p acc, snd (oseq_jmp_w H (ojmp H) ms g x v p acc) = snd (seq_jmp_w jmp h (map erase ms) ks x fm v p acc)).
    Proof.
      induction ms as [|m ms IH]; intros S N h g ks fm x; [split; reflexivity|]. destruct S as [Sm Ss]. cbn in N. apply nodup_app in N. destruct N as (_ & N & _).
      specialize (IH Ss N). cbn [map oseq_jmp_in seq_jmp_in oseq_jmp_w seq_jmp_w]. destruct (kid_split ks) as [k l].
      pose proof (call_agrees H m g k x) as Ca.
      destruct (call H (oforward H) m g x) as [g1 r] eqn:C. pose proof (call_ok H _ _ _ _ _ C k) as P. destruct (forward (erase m) k x) as [k1 r']. cbn [snd] in P. subst r'.
      destruct r as [y|]; [|split; reflexivity]. cbn [fst snd] in Ca. specialize (Ca y Sm eq_refl). cbv zeta. split; intros.
      - destruct (ojmp_runs H m Sm g1 k1 x y v Input Ca) as (_ & R2 & _). destruct ojmp as [g2 r], jmp as [k2 r']. cbn [snd] in R2. subst r'.
        destruct r as [v1|]; [|reflexivity]. destruct (IH h g2 l (hook_push h fm y) y) as [I1 _]. specialize (I1 v1). destruct seq_jmp_in as [[? ?] ?]. exact I1.
      - assert (E : exists g2 k2 r, (match acc with None => (g1, Ok None) | Some a => ojmp H m g1 x (Some y) (Some a) Input end) = (g2, r) /\
          (match acc with None => (k1, Ok None) | Some a => jmp (erase m) k1 x (Some y) (Some a) Input end) = (k2, r) /\ forall j, r = Ok j -> agrees m g2 k2).
        { destruct acc as [a|]; [|exists g1, k1, (Ok None); repeat split; auto].
          destruct (ojmp_runs H m Sm g1 k1 x y (Some a) Input Ca) as (R1 & R2 & R3). destruct ojmp as [g2 r], jmp as [k2 r']. cbn [fst snd] in *. subst r'. eauto 10. }
        destruct E as (g2 & k2 & r & -> & -> & A2). destruct r as [j|]; [|reflexivity]. specialize (A2 j eq_refl).
        match goal with |- snd (match ?Z with _ => _ end) = _ => destruct Z as [[acc1 vp]|] end; [|reflexivity].
        destruct (ojmp_runs H m Sm g2 k2 x y (Some vp) Weight A2) as (_ & R2 & _). destruct ojmp as [g3 r3], jmp as [k3 r3']. cbn [snd] in R2. subst r3'.
        match goal with |- snd (match ?Z with _ => _ end) = _ => destruct Z as [acc2|] end; [|reflexivity].
        destruct (IH h g3 l (hook_push h fm y) y) as [_ I2]. specialize (I2 v (p + n_params (erase m)) acc2). destruct seq_jmp_w as [[? ?] ?]. exact I2.
    Qed.
    Lemma ojmp_none : forall m, sep H m -> forall g s x v w, snd (ojmp H m g x None v w) = snd (jmp (erase m) s x None v w).
    Proof.
      induction m as [o l|o c|o h ms|o F IH]; intros S g s x v w.
      - reflexivity.
      - cbn. destruct v, w; auto; cbn; destruct max_pool2d as [[y i]|]; cbn; auto; now rewrite Nat.eqb_refl.
      - cbn [ojmp jmp erase]. destruct (wrt_ok w); [|reflexivity]. destruct v as [mt|]; [|apply (ojacobian_none (OSeq o h ms) S)].
        destruct S as [[S1 [S2 S3]] S4]. pose proof (oseq_jmp_sep ms (sep_go H _ S4) S2 h g (st_kids s) (st_fm s) x) as [I1 I2].
        destruct w; [specialize (I1 (Some mt))|specialize (I2 mt 0 None)|specialize (I1 (Some mt))].
        + destruct seq_jmp_in as [[? ?] ?]. exact I1.
        + destruct seq_jmp_w as [[? ?] ?]. exact I2.
        + destruct seq_jmp_in as [[? ?] ?]. exact I1.
      - cbn [ojmp jmp erase]. destruct v as [mt|]; [|apply (ojacobian_none (OSkip o F) S)].
        cbn [val_tail]. destruct (size 0 x) as [b|]; [|reflexivity]. cbn [bind]. destruct (numel0 x) as [l|]; [|reflexivity]. cbn [bind].
        specialize (IH S g (st_kid s) x (Some mt) w). destruct ojmp, jmp. cbn [snd] in *. now rewrite IH.
    Qed.
  End Sep.

  (** *** with val=model(x), right after that call *)
  Section After.
    Variables (m : node K) (g : heap K) (s : st K) (x y : T).
    Hypothesis S : sep H m.
    Hypothesis E : snd (call H (oforward H) m g x) = Ok y.
    Notation g1 := (fst (call H (oforward H) m g x)).
    Notation s1 := (fst (forward (erase m) s x)).
    Lemma after_products :
      (forall v w, snd (ovjp H m g1 x (Some y) v w) = snd (vjp (erase m) s1 x (Some y) v w)) /\
      (forall v w, snd (omjp H m g1 x (Some y) v w) = snd (mjp (erase m) s1 x (Some y) v w)) /\
      (forall w, snd (ojacobian H m g1 x (Some y) w) = snd (jacobian (erase m) s1 x (Some y) w)) /\
      (forall v w, snd (ojmp H m g1 x (Some y) v w) = snd (jmp (erase m) s1 x (Some y) v w)) /\
      (forall v w fd td db, snd (ojTmjp H m g1 x (Some y) v w fd td db) = snd (jTmjp (erase m) s1 x (Some y) v w fd td db)) /\
      (forall v w fd td db, snd (ojmjTp H m g1 x (Some y) v w fd td db) = snd (jmjTp (erase m) s1 x (Some y) v w fd td db)).
    Proof.
      pose proof (call_agrees H m g s x y S E) as A. repeat split; intros.
      - apply (ovjp_keeps H m _ _ x y v w A).
      - apply (omjp_keeps H m _ _ x y v w A).
      - apply (ojacobian_keeps H m _ _ x y w A).
      - apply (ojmp_runs H m S _ _ x y v w A).
      - apply (ojTmjp_keeps H m _ _ x y v w fd td db A).
      - apply (ojmjTp_runs H m S _ _ x y v w fd td db A).
    Qed.
  End After.
  Lemma none_products (m : node K) : registered H m -> sharing_ok m -> forall g s x,
      (forall v w, snd (ovjp H m g x None v w) = snd (vjp (erase m) s x None v w)) /\
      (forall v w, snd (omjp H m g x None v w) = snd (mjp (erase m) s x None v w)) /\
      (forall w, snd (ojacobian H m g x None w) = snd (jacobian (erase m) s x None w)) /\
      (forall v w, snd (ojmp H m g x None v w) = snd (jmp (erase m) s x None v w)) /\
      (forall v w fd td db, snd (ojTmjp H m g x None v w fd td db) = snd (jTmjp (erase m) s x None v w fd td db)) /\
      (forall v w fd td db, snd (ojmjTp H m g x None v w fd td db) = snd (jmjTp (erase m) s x None v w fd td db)).
  Proof.
    intros R Sh g s x. pose proof (sharing_sep m R Sh) as S. repeat split; intros.
    - now apply ovjp_none.
    - now apply omjp_none.
    - now apply ojacobian_none.
    - now apply ojmp_none.
    - now apply ojTmjp_none.
    - now apply ojmjTp_none.
  Qed.

End ObjMain.

Section Unshared.
  Context {K : Type}.
  (** *** no sharing at all *)
  Lemma ids_inner (m : node K) : ids m = oid m :: inner m.
  Proof. now destruct m. Qed.
  Lemma stateful_ids : forall m : node K, incl (stateful m) (ids m).
  Proof.
    refine (node_ind2 (fun m => incl (stateful m) (ids m)) (fun ms => incl (flat_map stateful ms) (flat_map ids ms)) _ _ _ _ _ _); cbn; intros.
    - intros z [].
    - apply incl_refl.
    - intros z [<-|I]; [now left|right; auto].
    - now apply incl_tl.
    - intros z [].
    - intros z I. rewrite in_app_iff in *. intuition.
  Qed.
  Lemma nodup_app_intro {A} (a b : list A) : NoDup a -> NoDup b -> (forall z, In z a -> ~ In z b) -> NoDup (a ++ b).
  Proof.
    induction a as [|z a IH]; cbn; auto. intros Na Nb D. apply NoDup_cons_iff in Na. destruct Na as [N1 N2]. constructor.
    - rewrite in_app_iff. intros [J|J]; [auto|]. apply (D z); auto.
    - apply IH; auto.
  Qed.
  Lemma nodup_stateful : forall m : node K, NoDup (ids m) -> NoDup (stateful m).
  Proof.
    refine (node_ind2 (fun m => NoDup (ids m) -> NoDup (stateful m)) (fun ms => NoDup (flat_map ids ms) -> NoDup (flat_map stateful ms)) _ _ _ _ _ _); cbn; intros; auto.
    - constructor.
    - apply NoDup_cons_iff in H0. destruct H0 as [N1 N2]. constructor; auto. intros J. apply N1. apply in_flat_map in J. destruct J as (c & Ic & J).
      apply in_flat_map. exists c. split; auto. now apply stateful_ids.
    - apply NoDup_cons_iff in H0. tauto.
    - apply nodup_app in H1. destruct H1 as (N1 & N2 & D). apply nodup_app_intro; auto. intros z I J. apply (D z); [now apply stateful_ids|].
      apply in_flat_map in J. destruct J as (c & Ic & J). apply in_flat_map. exists c. split; auto. now apply stateful_ids.
  Qed.
  Lemma nodup_list (ms : list (node K)) : NoDup (flat_map ids ms) -> NoDup (map oid ms) /\ forall c z, In c ms -> In z (inner c) -> ~ In z (map oid ms).
  Proof.
    assert (Sub : forall (l : list (node K)) z, In z (map oid l) -> In z (flat_map ids l)).
    { induction l as [|c l IH]; cbn; auto. intros z [<-|J]; apply in_or_app; [left; rewrite ids_inner; now left|right; auto]. }
    induction ms as [|m ms IH]; cbn; intros N; [split; [constructor|contradiction]|]. apply nodup_app in N. destruct N as (N1 & N2 & D). destruct (IH N2) as [I1 I2].
    rewrite ids_inner in N1, D. apply NoDup_cons_iff in N1. destruct N1 as [N0 N1]. split.
    - constructor; auto. intros J. apply (D (oid m)); [now left|auto].
    - intros c z [<-|Ic] Iz [<-|J].
      + auto.
      + apply (D z); [now right|auto].
      + apply (D (oid m)); [now left|]. apply in_flat_map. exists c. split; auto. rewrite ids_inner. now right.
      + exact (I2 c z Ic Iz J).
  Qed.
  Lemma unshared : forall m : node K, NoDup (ids m) -> sharing_ok m.
  Proof.
    intros m N. split; [now apply nodup_stateful|]. revert m N.
    set (P := fun (_ : nat) (hooks : bool) (ms : list (node K)) => hooks = true ->
              NoDup (map oid ms) /\ forall c z, In c ms -> In z (inner c) -> ~ In z (map oid ms)).
    refine (node_ind2 (fun m => NoDup (ids m) -> every_seq P m)
      (fun ms => NoDup (flat_map ids ms) -> (fix go l := match l with [] => True | m :: l => every_seq P m /\ go l end) ms) _ _ _ _ _ _); cbn; intros; auto.
    - apply NoDup_cons_iff in H0. destruct H0 as [N1 N2]. split; [intros _; now apply nodup_list|exact (H N2)].
    - apply NoDup_cons_iff in H0. tauto.
    - apply nodup_app in H1. destruct H1 as (N1 & N2 & D). split; [exact (H N1)|exact (H0 N2)].
  Qed.
End Unshared.
