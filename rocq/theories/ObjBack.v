(** The backward products of the object model compute what the tree model computes. *)
From Coq Require Import String Ascii List Arith ZArith Lia Bool.
From Verif Require Import Scalar Tensor Conv Abstract Simple LinearLayer ConvLayer PoolLayer Module Domain Objects ObjectsSpec ObjBase.
Import ListNotations.
Local Open Scope nat_scope.
Local Open Scope list_scope.

Section ObjBack.
  Context {K} `{NK : Num K}.
  Notation T := (tensor K).
  Variable H : nat -> list nat.

  (** the result is the same, the heap is not touched *)
  Definition keeps {R} (m : node K) (g : heap K) (a : heap K * R) (b : st K * R) : Prop :=
    fst a = g /\ snd a = snd b /\ agrees m g (fst b).
  Definition keeps_l {R} (ms : list (node K)) (g : heap K) (a : heap K * R) (b : list (st K) * R) : Prop :=
    fst a = g /\ snd a = snd b /\ agrees_l ms g (fst b).
  Lemma agrees_l_cons (m : node K) ms g k ks : agrees m g k -> agrees_l ms g ks -> agrees_l (m :: ms) g (k :: ks).
  Proof. now split. Qed.
  Lemma keeps_seq {R R'} (P : R -> R') o h ms g s fm i a (b : list (st K) * R) : agrees (OSeq o h ms) g s -> fm = st_fm s ->
    keeps_l ms g a b -> keeps (OSeq o h ms) g (fst a, P (snd a)) (St fm i (fst b), P (snd b)).
  Proof.
    intros A -> [E1 [E2 E3]]. split; [exact E1|split; [cbn [fst snd]; now rewrite E2|]]. apply agrees_seq in A. apply agrees_seq. cbn [st_fm st_kids]. tauto.
  Qed.

  Ltac kp := split; [reflexivity|split; [reflexivity|cbn [fst]]].
  Ltac kid A ks := destruct A as [A0 A1]; destruct (kid_split ks) as [s ks']; cbn [fst snd] in *.

  (** *** vjp *)
  Lemma ovjp_keeps : forall m g s x y v w, agrees m g s -> keeps m g (ovjp H m g x (Some y) v w) (vjp (erase m) s x (Some y) v w).
  Proof.
    refine (node_ind2 (fun m => forall g s x y v w, agrees m g s -> keeps m g (ovjp H m g x (Some y) v w) (vjp (erase m) s x (Some y) v w))
      (fun ms => forall o h g ks fm k v, agrees_l ms g ks -> same_reads h (h_fm g o) fm k (length ms) ->
         keeps_l ms g (oseq_vjp_in (ovjp H) o h ms g k v) (seq_vjp_in vjp h fm (map erase ms) ks k v) /\
         keeps_l ms g (oseq_vjp_w (ovjp H) o h ms g k v) (seq_vjp_w vjp h fm (map erase ms) ks k v)) _ _ _ _ _ _).
    - intros; kp; exact I.
    - intros o c g s x y v w A. cbn in A |- *. destruct w; (split; [reflexivity|split; [cbn; now rewrite ?A|exact A]]).
    - intros o h ms IH g s x y v w A. pose proof (agrees_reads _ _ _ _ _ A) as Rd. cbn [erase ovjp vjp oensure ensure].
      destruct (wrt_ok w); [|now kp].
      destruct (IH o h g (st_kids s) (st_fm s) 0 v (proj2 (proj1 (agrees_seq _ _ _ _ _) A)) Rd) as [I1 I2].
      destruct w.
      + pose proof (keeps_seq (fun r => some r) o h ms g s (st_fm s) (st_idx s) _ _ A eq_refl I1) as Z.
        destruct oseq_vjp_in, seq_vjp_in. exact Z.
      + pose proof (keeps_seq (fun r => '(vs, _) <- r ;; match vs with [] => Ok None | _ => some (cat n0 1 vs) end) o h ms g s (st_fm s) (st_idx s) _ _ A eq_refl I2) as Z.
        destruct oseq_vjp_w, seq_vjp_w. exact Z.
      + pose proof (keeps_seq (fun r => some r) o h ms g s (st_fm s) (st_idx s) _ _ A eq_refl I1) as Z.
        destruct oseq_vjp_in, seq_vjp_in. exact Z.
    - intros o F IH g s x y v w A. cbn [erase ovjp vjp]. destruct (numel0 x) as [l|]; [|now kp]. cbn [bind].
      cbn [val_tail]. destruct (slice_from n0 1 l y) as [t|]; [|now kp]. cbn [some bind].
      destruct (slice_from n0 1 l v) as [vt|]; [|now kp]. cbn [bind].
      destruct (IH g (st_kid s) x t vt w A) as [E1 [E2 E3]]. destruct ovjp as [g1 r], vjp as [k r']. cbn [fst snd] in *. subst.
      kp. exact E3.
    - intros; split; kp; exact I.
    - intros m ms IHm IHs o h g ks fm k v A Rd. pose proof (reads_hd _ _ _ _ _ Rd) as R0. apply reads_tl in Rd.
      cbn [map oseq_vjp_in seq_vjp_in oseq_vjp_w seq_vjp_w]. kid A ks.
      destruct (IHs o h g ks' fm (S k) v A1 Rd) as [I1 I2]. split.
      + destruct I1 as [E1 [E2 E3]]. destruct oseq_vjp_in as [g1 r], seq_vjp_in as [ks1 r']. cbn [fst snd] in *. subst.
        destruct r' as [v1|]; cbn [bind]; [|kp; now apply agrees_l_cons].
        rewrite R0. destruct (fmap2 h fm k) as [[x y]|]; cbn [bind]; [|kp; now apply agrees_l_cons].
        destruct (IHm g s x y v1 Input A0) as [F1 [F2 F3]]. destruct ovjp as [g1 r], vjp as [s1 r']. cbn [fst snd] in *. subst.
        kp. now apply agrees_l_cons.
      + destruct I2 as [E1 [E2 E3]]. destruct oseq_vjp_w as [g1 r], seq_vjp_w as [ks1 r']. cbn [fst snd] in *. subst.
        destruct r' as [[vs v1]|]; cbn [bind]; [|kp; now apply agrees_l_cons].
        rewrite R0. destruct (fmap2 h fm k) as [[x y]|]; cbn [bind]; [|kp; now apply agrees_l_cons].
        destruct (IHm g s x y v1 Weight A0) as [F1 [F2 F3]]. destruct ovjp as [g1 r], vjp as [s1 r']. cbn [fst snd] in *. subst.
        destruct r' as [vk|]; [|kp; now apply agrees_l_cons].
        destruct (Nat.eqb k 0); [kp; now apply agrees_l_cons|].
        destruct (IHm g s1 x y v1 Input F3) as [F1 [F2 F4]]. destruct ovjp as [g1 r], vjp as [s2 r']. cbn [fst snd] in *. subst.
        kp. now apply agrees_l_cons.
  Qed.

  (** *** mjp and jacobian *)
  Lemma omjp_keeps : forall m g s x y v w, agrees m g s -> keeps m g (omjp H m g x (Some y) v w) (mjp (erase m) s x (Some y) v w).
  Proof.
    refine (node_ind2 (fun m => forall g s x y v w, agrees m g s -> keeps m g (omjp H m g x (Some y) v w) (mjp (erase m) s x (Some y) v w))
      (fun ms => forall o h g ks fm k v, agrees_l ms g ks -> same_reads h (h_fm g o) fm k (length ms) ->
         keeps_l ms g (oseq_mjp_in (omjp H) o h ms g k v) (seq_mjp_in mjp h fm (map erase ms) ks k v) /\
         keeps_l ms g (oseq_mjp_w (omjp H) o h ms g k v) (seq_mjp_w mjp h fm (map erase ms) ks k v)) _ _ _ _ _ _).
    - intros; kp; exact I.
    - intros o c g s x y v w A. cbn in A |- *. destruct v, w; (split; [reflexivity|split; [cbn; now rewrite ?A|exact A]]).
    - intros o h ms IH g s x y v w A. pose proof (agrees_reads _ _ _ _ _ A) as Rd. cbn [erase omjp mjp oensure ensure].
      destruct (wrt_ok w); [|now kp].
      match goal with |- keeps _ _ (match ?Z with _ => _ end) _ => destruct Z as [mt|] end; [|now kp].
      destruct (IH o h g (st_kids s) (st_fm s) 0 (Some mt) (proj2 (proj1 (agrees_seq _ _ _ _ _) A)) Rd) as [I1 I2].
      destruct w.
      + pose proof (keeps_seq (fun r => r) o h ms g s (st_fm s) (st_idx s) _ _ A eq_refl I1) as Z.
        destruct oseq_mjp_in, seq_mjp_in. exact Z.
      + pose proof (keeps_seq (fun r => '(vs, _) <- r ;; match vs with [] => Ok None | _ => some (cat n0 2 vs) end) o h ms g s (st_fm s) (st_idx s) _ _ A eq_refl I2) as Z.
        destruct oseq_mjp_w, seq_mjp_w. exact Z.
      + pose proof (keeps_seq (fun r => r) o h ms g s (st_fm s) (st_idx s) _ _ A eq_refl I1) as Z.
        destruct oseq_mjp_in, seq_mjp_in. exact Z.
    - intros o F IH g s x y v w A. cbn [erase omjp mjp]. destruct v as [mt|].
      + destruct (numel0 x) as [l|]; [|now kp]. cbn [bind].
        cbn [val_tail]. destruct (slice_from n0 1 l y) as [t|]; [|now kp]. cbn [some bind].
        destruct (slice_from n0 2 l mt) as [vt|]; [|now kp]. cbn [bind].
        destruct (IH g (st_kid s) x t (Some vt) w A) as [E1 [E2 E3]]. destruct omjp as [g1 r], mjp as [k r']. cbn [fst snd] in *. subst.
        kp. exact E3.
      + unfold oskip_jacobian, skip_jacobian. cbn [oensure ensure].
        destruct (IH g (st_kid s) x y None w A) as [E1 [E2 E3]]. destruct omjp as [g1 r], mjp as [k r']. cbn [fst snd] in *. subst.
        match goal with |- keeps _ _ (match ?Z with _ => _ end) _ => destruct Z as [[[? ?] ?]|] end; kp; exact E3.
    - intros; split; kp; exact I.
    - intros m ms IHm IHs o h g ks fm k v A Rd. pose proof (reads_hd _ _ _ _ _ Rd) as R0. apply reads_tl in Rd.
      cbn [map oseq_mjp_in seq_mjp_in oseq_mjp_w seq_mjp_w]. kid A ks.
      destruct (IHs o h g ks' fm (S k) v A1 Rd) as [I1 I2]. split.
      + destruct I1 as [E1 [E2 E3]]. destruct oseq_mjp_in as [g1 r], seq_mjp_in as [ks1 r']. cbn [fst snd] in *. subst.
        destruct r' as [v1|]; cbn [bind]; [|kp; now apply agrees_l_cons].
        rewrite R0. destruct (fmap2 h fm k) as [[x y]|]; cbn [bind]; [|kp; now apply agrees_l_cons].
        destruct (IHm g s x y v1 Input A0) as [F1 [F2 F3]]. destruct omjp as [g1 r], mjp as [s1 r']. cbn [fst snd] in *. subst.
        kp. now apply agrees_l_cons.
      + destruct I2 as [E1 [E2 E3]]. destruct oseq_mjp_w as [g1 r], seq_mjp_w as [ks1 r']. cbn [fst snd] in *. subst.
        destruct r' as [[vs v1]|]; cbn [bind]; [|kp; now apply agrees_l_cons].
        rewrite R0. destruct (fmap2 h fm k) as [[x y]|]; cbn [bind]; [|kp; now apply agrees_l_cons].
        destruct (IHm g s x y v1 Weight A0) as [F1 [F2 F3]]. destruct omjp as [g1 r], mjp as [s1 r']. cbn [fst snd] in *. subst.
        destruct r' as [vk|]; [|kp; now apply agrees_l_cons].
        destruct (Nat.eqb k 0); [kp; now apply agrees_l_cons|].
        destruct (IHm g s1 x y v1 Input F3) as [F1 [F2 F4]]. destruct omjp as [g1 r], mjp as [s2 r']. cbn [fst snd] in *. subst.
        kp. now apply agrees_l_cons.
  Qed.
  Lemma ojacobian_keeps m g s x y w : agrees m g s -> keeps m g (ojacobian H m g x (Some y) w) (jacobian (erase m) s x (Some y) w).
  Proof.
    intros A. destruct m as [o l|o c|o h ms|o F]; cbn [erase ojacobian jacobian].
    - now kp.
    - apply (omjp_keeps (OPool o c) g s x y None w A).
    - apply (omjp_keeps (OSeq o h ms) g s x y None w A).
    - apply (omjp_keeps (OSkip o F) g s x y None w A).
  Qed.

  (** *** jTmjp *)
  Lemma ojTmjp_keeps : forall m g s x y v w fd td db, agrees m g s ->
    keeps m g (ojTmjp H m g x (Some y) v w fd td db) (jTmjp (erase m) s x (Some y) v w fd td db).
  Proof.
    refine (node_ind2 (fun m => forall g s x y v w fd td db, agrees m g s ->
         keeps m g (ojTmjp H m g x (Some y) v w fd td db) (jTmjp (erase m) s x (Some y) v w fd td db))
      (fun ms => forall o h g ks fm k v fd td db, agrees_l ms g ks -> same_reads h (h_fm g o) fm k (length ms) ->
         keeps_l ms g (oseq_jTmjp_in (ojTmjp H) o h ms g k v fd td db) (seq_jTmjp_in jTmjp h fm (map erase ms) ks k v fd td db) /\
         keeps_l ms g (oseq_jTmjp_w (ojTmjp H) o h ms g k v fd td db) (seq_jTmjp_w jTmjp h fm (map erase ms) ks k v fd td db)) _ _ _ _ _ _).
    - intros; kp; exact I.
    - intros o c g s x y v w fd td db A. cbn in A |- *. (split; [reflexivity|split; [cbn; now rewrite ?A|exact A]]).
    - intros o h ms IH g s x y v w fd td db A. pose proof (agrees_reads _ _ _ _ _ A) as Rd. cbn [erase ojTmjp jTmjp oensure ensure].
      destruct (db_ok fd td db); [|now kp].
      match goal with |- keeps _ _ (match ?Z with _ => _ end) _ => destruct Z as [[mt fd']|] end; [|now kp].
      destruct (IH o h g (st_kids s) (st_fm s) 0 mt fd' td db (proj2 (proj1 (agrees_seq _ _ _ _ _) A)) Rd) as [I1 I2].
      destruct w.
      + pose proof (keeps_seq (fun r => v <- r ;; Ok v) o h ms g s (st_fm s) (st_idx s) _ _ A eq_refl I1) as Z.
        destruct oseq_jTmjp_in, seq_jTmjp_in. exact Z.
      + pose proof (keeps_seq (fun r => '(vs, _) <- r ;; match vs with [] => Ok VNone | _ => if td then ts <- mapM to_tensor vs ;; c <- cat n0 1 ts ;; Ok (VT c) else Ok (VL vs) end) o h ms g s (st_fm s) (st_idx s) _ _ A eq_refl I2) as Z.
        destruct oseq_jTmjp_w, seq_jTmjp_w. exact Z.
      + pose proof (keeps_seq (fun r => v <- r ;; Ok (@VNone K)) o h ms g s (st_fm s) (st_idx s) _ _ A eq_refl I1) as Z.
        destruct oseq_jTmjp_in, seq_jTmjp_in. exact Z.
    - intros o F IH g s x y v w fd td db A. cbn [erase ojTmjp jTmjp oensure ensure]. destruct (db_ok fd td db); [|now kp].
      match goal with |- keeps _ _ (match ?Z with _ => _ end) _ => destruct Z as [[[[[mt fd'] l] t] sub]|] end; [|now kp].
      destruct (IH g (st_kid s) x t (VT sub) w fd' td db A) as [E1 [E2 E3]]. destruct ojTmjp as [g1 r], jTmjp as [k r']. cbn [fst snd] in *. subst.
      destruct r' as [j|]; [|kp; exact E3]. destruct w; [|kp; exact E3|kp; exact E3].
      destruct fd'; [kp; exact E3|].
      match goal with |- keeps _ _ (match ?Z with _ => _ end) _ => destruct Z as [m12|] end; [|kp; exact E3].
      change (st_kid (set_kid s k)) with k.
      destruct (omjp_keeps F g k x t (Some m12) Input E3) as [F1 [F2 F3]]. destruct omjp as [g1 r], mjp as [k1 r']. cbn [fst snd] in *. subst.
      match goal with |- keeps _ _ (match ?Z with _ => _ end) _ => destruct Z as [[mj m21T]|] end; [|kp; exact F3].
      change (st_kid (set_kid (set_kid s k) k1)) with k1.
      destruct (omjp_keeps F g k1 x t (Some m21T) Input F3) as [F1 [F2 F4]]. destruct omjp as [g1 r], mjp as [k2 r2]. cbn [fst snd] in *. subst.
      kp; exact F4.
    - intros; split; kp; exact I.
    - intros m ms IHm IHs o h g ks fm k v fd td db A Rd. pose proof (reads_hd _ _ _ _ _ Rd) as R0. apply reads_tl in Rd.
      cbn [map oseq_jTmjp_in seq_jTmjp_in oseq_jTmjp_w seq_jTmjp_w]. kid A ks.
      replace (match map erase ms with [] => fd | _ => db end) with (match ms with [] => fd | _ => db end) by now destruct ms.
      destruct (IHs o h g ks' fm (S k) v fd td db A1 Rd) as [I1 I2]. split.
      + destruct I1 as [E1 [E2 E3]]. destruct oseq_jTmjp_in as [g1 r], seq_jTmjp_in as [ks1 r']. cbn [fst snd] in *. subst.
        destruct r' as [v1|]; cbn [bind]; [|kp; now apply agrees_l_cons].
        rewrite R0. destruct (fmap2 h fm k) as [[x y]|]; cbn [bind]; [|kp; now apply agrees_l_cons].
        destruct (IHm g s x y v1 Input (match ms with [] => fd | _ => db end) (if Nat.eqb k 0 then td else db) db A0) as [F1 [F2 F3]].
        destruct ojTmjp as [g1 r], jTmjp as [s1 r']. cbn [fst snd] in *. subst.
        kp. now apply agrees_l_cons.
      + destruct I2 as [E1 [E2 E3]]. destruct oseq_jTmjp_w as [g1 r], seq_jTmjp_w as [ks1 r']. cbn [fst snd] in *. subst.
        destruct r' as [[vs v1]|]; cbn [bind]; [|kp; now apply agrees_l_cons].
        rewrite R0. destruct (fmap2 h fm k) as [[x y]|]; cbn [bind]; [|kp; now apply agrees_l_cons].
        destruct (IHm g s x y v1 Weight (match ms with [] => fd | _ => db end) td db A0) as [F1 [F2 F3]].
        destruct ojTmjp as [g1 r], jTmjp as [s1 r']. cbn [fst snd] in *. subst.
        destruct r' as [vk|]; [|kp; now apply agrees_l_cons].
        destruct (Nat.eqb k 0); [kp; now apply agrees_l_cons|].
        destruct (IHm g s1 x y v1 Input (match ms with [] => fd | _ => db end) db db F3) as [F1 [F2 F4]].
        destruct ojTmjp as [g1 r], jTmjp as [s2 r']. cbn [fst snd] in *. subst.
        kp. now apply agrees_l_cons.
  Qed.
End ObjBack.
