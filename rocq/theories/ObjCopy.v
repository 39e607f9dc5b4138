(** Deep copies: the copy has the hooks of the original, which write to the original. *)
From Coq Require Import List Arith Lia Bool.
From Verif Require Import Scalar Tensor Conv Abstract Simple LinearLayer ConvLayer PoolLayer Module Domain HooksSpec Objects ObjectsSpec ObjBase ObjFwd ObjMain ObjParams.
Import ListNotations.
Local Open Scope nat_scope.
Local Open Scope list_scope.

Section ObjCopy.
  Context {K} `{NK : Num K}.
  Notation T := (tensor K).

  Lemma erase_rename f : forall m : node K, erase (rename f m) = erase m.
  Proof.
    refine (node_ind2 (fun m => erase (rename f m) = erase m) (fun ms => map erase (map (rename f) ms) = map erase ms) _ _ _ _ _ _); cbn; intros; congruence.
  Qed.
  Lemma ids_rename f : forall m : node K, ids (rename f m) = map f (ids m).
  Proof.
    refine (node_ind2 (fun m => ids (rename f m) = map f (ids m)) (fun ms => flat_map ids (map (rename f) ms) = map f (flat_map ids ms)) _ _ _ _ _ _); cbn; intros; try congruence.
    rewrite map_app. congruence.
  Qed.
  Lemma stateful_rename f : forall m : node K, stateful (rename f m) = map f (stateful m).
  Proof.
    refine (node_ind2 (fun m => stateful (rename f m) = map f (stateful m)) (fun ms => flat_map stateful (map (rename f) ms) = map f (flat_map stateful ms)) _ _ _ _ _ _); cbn; intros; try congruence.
    rewrite map_app. congruence.
  Qed.
  Lemma oid_rename f (m : node K) : oid (rename f m) = f (oid m). Proof. now destruct m. Qed.

  (** an object is not inside itself *)
  Fixpoint nsize (m : node K) : nat :=
    match m with
    | OLeaf _ _ | OPool _ _ => 1
    | OSeq _ _ ms => S (list_sum (map nsize ms))
    | OSkip _ F => S (nsize F)
    end.
  Lemma nodes_size : forall (m b : node K), In b (nodes m) -> nsize b <= nsize m.
  Proof.
    refine (node_ind2 (fun m => forall b, In b (nodes m) -> nsize b <= nsize m) (fun ms => forall b, In b (flat_map nodes ms) -> nsize b <= list_sum (map nsize ms)) _ _ _ _ _ _); cbn; intros.
    - destruct H as [<-|[]]. auto.
    - destruct H as [<-|[]]. auto.
    - destruct H0 as [<-|J]; [cbn; auto|]. specialize (H b J). lia.
    - destruct H0 as [<-|J]; [cbn; auto|]. specialize (H b J). lia.
    - contradiction.
    - apply in_app_or in H1. fold (list_sum (map nsize ms)). destruct H1 as [J|J]; [specialize (H b J)|specialize (H0 b J)]; unfold list_sum in *; lia.
  Qed.
  Lemma ids_node : forall (m : node K) o, In o (ids m) -> exists b, In b (nodes m) /\ oid b = o.
  Proof.
    refine (node_ind2 (fun m => forall o, In o (ids m) -> exists b, In b (nodes m) /\ oid b = o) (fun ms => forall o, In o (flat_map ids ms) -> exists b, In b (flat_map nodes ms) /\ oid b = o) _ _ _ _ _ _); cbn; intros.
    - destruct H as [<-|[]]. eexists. split; [now left|reflexivity].
    - destruct H as [<-|[]]. eexists. split; [now left|reflexivity].
    - destruct H0 as [<-|J]; [eexists; split; [now left|reflexivity]|]. destruct (H o0 J) as (b & I & E). eauto.
    - destruct H0 as [<-|J]; [eexists; split; [now left|reflexivity]|]. destruct (H o0 J) as (b & I & E). eauto.
    - contradiction.
    - apply in_app_or in H1. destruct H1 as [J|J]; [destruct (H o J) as (b & I & E)|destruct (H0 o J) as (b & I & E)]; exists b; split; auto; apply in_or_app; auto.
  Qed.
  Lemma not_inside o h (ms : list (node K)) : objects (OSeq o h ms) -> ~ In o (flat_map ids ms).
  Proof.
    intros O J. assert (E : exists b, In b (flat_map nodes ms) /\ oid b = o).
    { apply in_flat_map in J. destruct J as (c & Ic & J). destruct (ids_node c o J) as (b & I & E). exists b. split; auto. apply in_flat_map. eauto. }
    destruct E as (b & I & E). pose proof (O (OSeq o h ms) b (or_introl eq_refl) (or_intror I) (eq_sym E)) as Q. subst b.
    apply in_flat_map in I. destruct I as (c & Ic & I). apply nodes_size in I. cbn in I.
    assert (nsize c <= list_sum (map nsize ms)); [|lia]. clear -Ic. induction ms as [|d ms IH]; [contradiction|].
    change (list_sum (map nsize (d :: ms))) with (nsize d + list_sum (map nsize ms)). destruct Ic as [<-|Ic]; [lia|]. specialize (IH Ic). lia.
  Qed.

  Section Copy.
    Variables (H : nat -> list nat) (f : nat -> nat).
    (** the root Sequential has at most its input among the feature maps *)
    Fixpoint bare (c : node K) (g : heap K) : Prop :=
      match c with
      | OSeq o _ _ => length (h_fm g o) <= 1
      | OSkip _ F => bare F g
      | _ => True
      end.
    (** what is used of the copy *)
    Fixpoint lost (c : node K) : Prop :=
      match c with
      | OSeq o h ms => h = true /\ ms <> [] /\ ~ In o (flat_map stateful ms) /\ forall z, ~ In o (H z)
      | OSkip _ F => lost F
      | _ => False
      end.
    Lemma copy_lost : forall m : node K, objects m -> copies H f m -> seq_root m -> lost (rename f m).
    Proof.
      induction m as [| |o h ms|o F IH]; cbn [seq_root]; try contradiction; intros O (C1 & C2 & C3 & C4) R; cbn [rename lost].
      - destruct R as [R1 R2]. split; [exact R1|]. split; [now destruct ms|]. split.
        + intros J. apply in_flat_map in J. destruct J as (c & Ic & J). apply in_map_iff in Ic. destruct Ic as (c0 & <- & Ic).
          rewrite stateful_rename in J. apply in_map_iff in J. destruct J as (z & E & J).
          assert (Iz : In z (flat_map ids ms)) by (apply in_flat_map; exists c0; split; auto; now apply stateful_ids).
          assert (z = o) by (apply C1; cbn; auto). subst z. exact (not_inside o h ms O Iz).
        + intros z. apply C4. now left.
      - apply IH; auto.
        + intros a b Ia Ib. apply O; now right.
        + repeat split; intros; cbn in *; auto. intros J. apply (C2 o0); auto.
    Qed.
    Lemma oseq_forward_frame : forall (ms : list (node K)) g x, frame_l H ms g (fst (oseq_forward H (oforward H) ms g x)).
    Proof.
      induction ms as [|m ms IH]; intros g x; [apply frame_l_refl|]. cbn [oseq_forward].
      pose proof (call_frame H (m :: ms) m g x (or_introl eq_refl) (oforward_frame H m g x)) as C. destruct (call H (oforward H) m g x) as [g1 [y|e]]; [|exact C].
      eapply frame_l_trans; [exact C|]. apply frame_l_tl. apply IH.
    Qed.
    Lemma oforward_bare : forall (c : node K) g x, lost c -> bare c (fst (oforward H c g x)).
    Proof.
      induction c as [| |o h ms|o F IH]; cbn [lost]; try contradiction; intros g x L.
      - destruct L as (-> & _ & L1 & L2). cbn [bare].
        pose proof (oseq_forward_frame ms (set_fm g o [x]) x) as Fr.
        destruct Fr as [_ Fr]. destruct (Fr o L1) as (e & E & Z). cbn [oforward]. rewrite E, Z by (intros; apply L2). cbn. rewrite Nat.eqb_refl. cbn. lia.
      - cbn [oforward bare]. specialize (IH g x L). unfold call. destruct (oforward H F g x) as [g1 [y|]]; [|exact IH]. cbn [fst] in *.
        clear -IH L. generalize (oid F). intros n. revert IH. induction F as [| |o h ms|o F IHF]; cbn [bare lost] in *; auto. rewrite push_fm. destruct L as (_ & _ & _ & L).
        rewrite (proj1 (count_occ_not_In _ _ _)) by apply L. cbn. now rewrite app_nil_r.
    Qed.

    Lemma fmap2_short (l : list T) k : length l <= 1 -> fmap2 true l k = Raise IndexError.
    Proof.
      intros L. unfold fmap2, fmap_at. destruct (nth_error l k); [|reflexivity]. cbn [bind].
      assert (E : nth_error l (S k) = None) by (apply nth_error_None; lia). now rewrite E.
    Qed.
    (** *** the backward loops stop at the last layer *)
    Lemma oseq_vjp_in_stop fv o ms (g : heap K) : ms <> [] -> length (h_fm g o) <= 1 -> forall k v, oseq_vjp_in fv o true ms g k v = (g, Raise IndexError).
    Proof.
      intros N L. induction ms as [|m [|m' ms] IH]; [contradiction| |]; intros k v.
      - cbn. now rewrite fmap2_short.
      - cbn [oseq_vjp_in] in *. rewrite IH by discriminate. reflexivity.
    Qed.
    Lemma oseq_vjp_w_stop fv o ms (g : heap K) : ms <> [] -> length (h_fm g o) <= 1 -> forall k v, oseq_vjp_w fv o true ms g k v = (g, Raise IndexError).
    Proof.
      intros N L. induction ms as [|m [|m' ms] IH]; [contradiction| |]; intros k v.
      - cbn. now rewrite fmap2_short.
      - cbn [oseq_vjp_w] in *. rewrite IH by discriminate. reflexivity.
    Qed.
    Lemma oseq_mjp_in_stop fv o ms (g : heap K) : ms <> [] -> length (h_fm g o) <= 1 -> forall k v, oseq_mjp_in fv o true ms g k v = (g, Raise IndexError).
    Proof.
      intros N L. induction ms as [|m [|m' ms] IH]; [contradiction| |]; intros k v.
      - cbn. now rewrite fmap2_short.
      - cbn [oseq_mjp_in] in *. rewrite IH by discriminate. reflexivity.
    Qed.
    Lemma oseq_mjp_w_stop fv o ms (g : heap K) : ms <> [] -> length (h_fm g o) <= 1 -> forall k v, oseq_mjp_w fv o true ms g k v = (g, Raise IndexError).
    Proof.
      intros N L. induction ms as [|m [|m' ms] IH]; [contradiction| |]; intros k v.
      - cbn. now rewrite fmap2_short.
      - cbn [oseq_mjp_w] in *. rewrite IH by discriminate. reflexivity.
    Qed.
    Lemma oseq_jTmjp_in_stop fv o ms (g : heap K) : ms <> [] -> length (h_fm g o) <= 1 -> forall k v fd td db, oseq_jTmjp_in fv o true ms g k v fd td db = (g, Raise IndexError).
    Proof.
      intros N L. induction ms as [|m [|m' ms] IH]; [contradiction| |]; intros k v fd td db.
      - cbn. now rewrite fmap2_short.
      - cbn [oseq_jTmjp_in] in *. rewrite IH by discriminate. reflexivity.
    Qed.
    Lemma oseq_jTmjp_w_stop fv o ms (g : heap K) : ms <> [] -> length (h_fm g o) <= 1 -> forall k v fd td db, oseq_jTmjp_w fv o true ms g k v fd td db = (g, Raise IndexError).
    Proof.
      intros N L. induction ms as [|m [|m' ms] IH]; [contradiction| |]; intros k v fd td db.
      - cbn. now rewrite fmap2_short.
      - cbn [oseq_jTmjp_w] in *. rewrite IH by discriminate. reflexivity.
    Qed.

    Definition raises {A} (r : res A) : Prop := forall a, r <> Ok a.
    Lemma raise_raises {A} e : raises (Raise e : res A). Proof. intros a. discriminate. Qed.
    Hint Resolve raise_raises : core.
    Lemma raises_bind {A B} (r : res A) (k : A -> res B) : raises r -> raises (bind r k).
    Proof. destruct r; cbn; auto. intros Q. now destruct (Q a). Qed.

    (** a stale val is of no help either: with val given, the feature maps are still those of the last forward *)
    Lemma ovjp_lost : forall (c : node K), lost c -> forall g x val v w, val = None \/ bare c g -> w <> Other -> raises (snd (ovjp H c g x val v w)).
    Proof.
      induction c as [| |o h ms|o F IH]; cbn [lost]; try contradiction; intros L g x val v w V W.
      - assert (E : forall g', length (h_fm g' o) <= 1 -> raises (snd (match w with
                       | Weight => let '(g, r) := oseq_vjp_w (ovjp H) o h ms g' 0 v in (g, '(vs, _) <- r ;; match vs with [] => Ok None | _ => some (cat n0 1 vs) end)
                       | _ => let '(g, r) := oseq_vjp_in (ovjp H) o h ms g' 0 v in (g, some r) end))).
        { intros g' Lg. destruct L as (-> & L0 & _). destruct w; rewrite ?oseq_vjp_in_stop, ?oseq_vjp_w_stop by auto; cbn; auto. }
        cbn [ovjp]. destruct w; try contradiction; cbn [wrt_ok].
        all: destruct val as [y|]; cbn [oensure]; [apply E; destruct V as [V|V]; [discriminate|exact V]|].
        all: pose proof (oforward_bare (OSeq o h ms) g x L) as B; destruct (oforward H (OSeq o h ms) g x) as [g1 [y|]]; [|cbn; auto]; apply E; exact B.
      - cbn [ovjp]. destruct (numel0 x) as [n|]; [|cbn; auto]. cbn [bind].
        assert (E : forall t, val_tail n val = Ok t -> t = None \/ bare F g).
        { intros t Et. destruct V as [->|V]; [|now right]. left. cbn in Et. congruence. }
        destruct (val_tail n val) as [t|]; [|cbn; auto]. cbn [bind]. specialize (E t eq_refl). destruct slice_from as [vt|]; [|cbn; auto]. cbn [bind].
        specialize (IH L g x t vt w E W). destruct ovjp as [g1 r]. cbn [snd] in *. now apply raises_bind.
    Qed.
    Lemma omjp_lost : forall (c : node K), lost c -> forall g x val v w, val = None \/ bare c g -> w <> Other -> raises (snd (omjp H c g x val v w)).
    Proof.
      induction c as [| |o h ms|o F IH]; cbn [lost]; try contradiction; intros L g x val v w V W.
      - assert (E : forall g' (mt : T), length (h_fm g' o) <= 1 -> raises (snd (match w with
              | Weight =>
                  let '(g, r) := oseq_mjp_w (omjp H) o h ms g' 0 (Some mt) in
                  (g, '(vs, _) <- r ;; match vs with [] => Ok None | _ => some (cat n0 2 vs) end)
              | _ => oseq_mjp_in (omjp H) o h ms g' 0 (Some mt)
              end))).
        { intros g' mt Lg. destruct L as (-> & L0 & _). destruct w; rewrite ?oseq_mjp_in_stop, ?oseq_mjp_w_stop by auto; cbn; auto. }
        assert (G : forall g' (r : res T), (forall y, r = Ok y -> length (h_fm g' o) <= 1) -> raises (snd (match (y <- r ;;
                 match v with
                 | Some mt => Ok mt
                 | None => match shape y with
                           | [] => Raise IndexError
                           | b :: sh => Ok (eye_repeat b (numel sh))
                           end
                 end) with
          | Raise e => (g', Raise e)
          | Ok mt => match w with
              | Weight =>
                  let '(g, r) := oseq_mjp_w (omjp H) o h ms g' 0 (Some mt) in
                  (g, '(vs, _) <- r ;; match vs with [] => Ok None | _ => some (cat n0 2 vs) end)
              | _ => oseq_mjp_in (omjp H) o h ms g' 0 (Some mt)
              end end))).
        { intros g' r Q. destruct r as [y|]; cbn [bind]; [|cbn; auto]. specialize (E g'). destruct v as [mt|]; [apply E; eauto|].
          destruct (shape y); [cbn; auto|]. apply E; eauto. }
        cbn [omjp]. destruct w; try contradiction; cbn [wrt_ok].
        all: destruct val as [y|]; cbn [oensure]; [apply G; intros; destruct V as [V|V]; [discriminate|exact V]|].
        all: pose proof (oforward_bare (OSeq o h ms) g x L) as B; destruct (oforward H (OSeq o h ms) g x) as [g1 r]; apply G; intros; exact B.
      - cbn [omjp]. destruct v as [mt|].
        + destruct (numel0 x) as [n|]; [|cbn; auto]. cbn [bind].
          assert (E : forall t, val_tail n val = Ok t -> t = None \/ bare F g).
          { intros t Et. destruct V as [->|V]; [|now right]. left. cbn in Et. congruence. }
          destruct (val_tail n val) as [t|]; [|cbn; auto]. cbn [bind]. specialize (E t eq_refl). destruct slice_from as [vt|]; [|cbn; auto]. cbn [bind].
          specialize (IH L g x t (Some vt) w E W). destruct omjp as [g1 r]. cbn [snd] in *. now apply raises_bind.
        + unfold oskip_jacobian. specialize (IH L g x val None w V W). destruct omjp as [g1 [r|]]; [|cbn; auto]. cbn [snd] in IH. now destruct (IH r).
    Qed.
    Lemma ojacobian_lost (c : node K) : lost c -> forall g x val w, val = None \/ bare c g -> w <> Other -> raises (snd (ojacobian H c g x val w)).
    Proof.
      intros L g x val w V W. pose proof (omjp_lost c L g x val None w V W) as Q. destruct c; try contradiction; exact Q.
    Qed.
    Lemma ojTmjp_lost : forall (c : node K), lost c -> forall g x val v w fd td db, val = None \/ bare c g -> w <> Other -> raises (snd (ojTmjp H c g x val v w fd td db)).
    Proof.
      induction c as [| |o h ms|o F IH]; cbn [lost]; try contradiction; intros L g x val v w fd td db V W.
      - cbn [ojTmjp]. destruct db_ok; [|cbn; auto].
        assert (Q : forall g' (r : res T), oensure H (OSeq o h ms) g x val = (g', r) -> length (h_fm g' o) <= 1).
        { intros g' r Er. destruct val as [y|]; cbn [oensure] in Er.
          - injection Er as <- <-. destruct V as [V|V]; [discriminate|exact V].
          - pose proof (oforward_bare (OSeq o h ms) g x L) as B. rewrite Er in B. exact B. }
        destruct (oensure H (OSeq o h ms) g x val) as [g' r]. specialize (Q g' r eq_refl).
        match goal with |- raises (snd (match ?Z with _ => _ end)) => destruct Z as [[mt fd']|] end; [|cbn; auto].
        destruct L as (-> & L0 & _). destruct w; try contradiction; rewrite ?oseq_jTmjp_in_stop, ?oseq_jTmjp_w_stop by auto; cbn; auto.
      - cbn [ojTmjp]. destruct db_ok; [|cbn; auto].
        assert (Q : forall g' (r : res T), oensure H (OSkip o F) g x val = (g', r) -> bare F g').
        { intros g' r Er. destruct val as [y|]; cbn [oensure] in Er.
          - injection Er as <- <-. destruct V as [V|V]; [discriminate|exact V].
          - pose proof (oforward_bare (OSkip o F) g x L) as B. rewrite Er in B. exact B. }
        destruct (oensure H (OSkip o F) g x val) as [g' r]. specialize (Q g' r eq_refl).
        match goal with |- raises (snd (match ?Z with _ => _ end)) => destruct Z as [[[[[mt fd'] l] t] sub]|] end; [|cbn; auto].
        specialize (IH L g' x (Some t) (VT sub) w fd' td db (or_intror Q) W). destruct ojTmjp as [g2 [j|]]; [|cbn; auto]. cbn [snd] in IH. now destruct (IH j).
    Qed.
    Lemma ojmjTp_lost : forall (c : node K), lost c -> forall g x val v fd td db, val = None \/ bare c g -> raises (snd (ojmjTp H c g x val v Input fd td db)).
    Proof.
      induction c as [| |o h ms|o F IH]; cbn [lost]; try contradiction; intros L g x val v fd td db V.
      - cbn [ojmjTp]. destruct db_ok; [|cbn; auto].
        assert (Q : forall g' (r : res T), oensure H (OSeq o h ms) g x val = (g', r) -> length (h_fm g' o) <= 1).
        { intros g' r Er. destruct val as [y|]; cbn [oensure] in Er.
          - injection Er as <- <-. destruct V as [V|V]; [discriminate|exact V].
          - pose proof (oforward_bare (OSeq o h ms) g x L) as B. rewrite Er in B. exact B. }
        destruct (oensure H (OSeq o h ms) g x val) as [g' r]. specialize (Q g' r eq_refl). destruct r as [y|]; [|cbn; auto].
        match goal with |- raises (snd (let '(_, _) := ?Z in _)) => destruct Z as [mt fd'] end.
        destruct L as (-> & L0 & _). destruct ms as [|m ms]; [contradiction|]. cbn [oseq_jmjTp_in]. rewrite fmap2_short by auto. cbn; auto.
      - cbn [ojmjTp]. destruct db_ok; [|cbn; auto].
        assert (Q : forall g' (r : res T), oensure H (OSkip o F) g x val = (g', r) -> bare F g').
        { intros g' r Er. destruct val as [y|]; cbn [oensure] in Er.
          - injection Er as <- <-. destruct V as [V|V]; [discriminate|exact V].
          - pose proof (oforward_bare (OSkip o F) g x L) as B. rewrite Er in B. exact B. }
        destruct (oensure H (OSkip o F) g x val) as [g' r]. specialize (Q g' r eq_refl).
        match goal with |- raises (snd (match ?Z with _ => _ end)) => destruct Z as [[[[b l1] l2] t]|] end; [|cbn; auto].
        specialize (IH L g' x (Some t) v fd td db (or_intror Q)). destruct ojmjTp as [g2 [j|]]; [|cbn; auto]. cbn [snd] in IH. now destruct (IH j).
    Qed.

    Lemma copy_raises (m : node K) : objects m -> copies H f m -> seq_root m -> forall g x w, w <> Other ->
      (forall v r, snd (ovjp H (rename f m) g x None v w) <> Ok r) /\
      (forall v r, snd (omjp H (rename f m) g x None v w) <> Ok r) /\
      (forall r, snd (ojacobian H (rename f m) g x None w) <> Ok r) /\
      (forall v fd td db r, snd (ojTmjp H (rename f m) g x None v w fd td db) <> Ok r) /\
      (forall v fd td db r, snd (ojmjTp H (rename f m) g x None v Input fd td db) <> Ok r).
    Proof.
      intros O C R g x w W. pose proof (copy_lost m O C R) as L. repeat split; intros.
      - now apply ovjp_lost; auto.
      - now apply omjp_lost; auto.
      - now apply ojacobian_lost; auto.
      - now apply ojTmjp_lost; auto.
      - now apply ojmjTp_lost; auto.
    Qed.

    (** *** the copy fills the lists of the original *)
    Lemma oseq_forward_fills o (ms : list (node K)) : (forall c, In c ms -> count_occ Nat.eq_dec (H (oid c)) o = 1 /\ forall z, In z (inner c) -> ~ In o (H z)) ->
      ~ In o (flat_map stateful ms) -> forall g x y, snd (oseq_forward H (oforward H) ms g x) = Ok y ->
      length (h_fm (fst (oseq_forward H (oforward H) ms g x)) o) = length (h_fm g o) + length ms.
    Proof.
      induction ms as [|m ms IH]; intros C N g x y; cbn [oseq_forward]; [cbn; lia|].
      destruct (C m (or_introl eq_refl)) as [C1 C2]. cbn [flat_map] in N. rewrite in_app_iff in N.
      unfold call at 1 2. pose proof (oforward_frame H m g x) as [_ Fr]. destruct (Fr o) as (e & E & Z); [tauto|]. rewrite (Z C2), app_nil_r in E.
      destruct (oforward H m g x) as [g1 [z|]]; [|discriminate]. cbn [fst] in E. intros Ey.
      rewrite (IH (fun c Ic => C c (or_intror Ic))) with (y := y); [|tauto|exact Ey]. rewrite push_fm, C1, E, app_length. cbn. lia.
    Qed.
    Lemma copy_fills o (ms : list (node K)) g x y : registered H (OSeq o true ms) -> sharing_ok (OSeq o true ms) -> copies H f (OSeq o true ms) ->
      snd (oforward H (rename f (OSeq o true ms)) g x) = Ok y ->
      length (h_fm (fst (oforward H (rename f (OSeq o true ms)) g x)) o) = length (h_fm g o) + length ms.
    Proof.
      intros R Sh (C1 & C2 & C3 & C4) E. destruct (sharing_sep H _ R Sh) as [(S1 & S2 & S3) _]. specialize (S3 eq_refl). cbn [rename oforward] in *.
      assert (Fo : f o <> o) by (intros Q; apply (C2 o); cbn; auto).
      assert (In' : forall c z, In c ms -> In z (ids c) -> In z (ids (OSeq o true ms))) by (intros c z Ic Iz; right; apply in_flat_map; eauto).
      rewrite (oseq_forward_fills o (map (rename f) ms)) with (y := y); auto.
      - cbn. destruct (Nat.eqb_spec o (f o)); [congruence|]. now rewrite map_length.
      - intros c Ic. apply in_map_iff in Ic. destruct Ic as (c0 & <- & Ic). destruct (S3 c0 Ic) as [A B]. rewrite oid_rename, C3; [split; auto|].
        + intros z Iz. unfold inner in Iz. rewrite ids_rename in Iz. rewrite ids_cons in Iz. cbn in Iz. apply in_map_iff in Iz. destruct Iz as (z0 & <- & Iz).
          rewrite C3; auto. apply (In' c0); auto. rewrite ids_cons. now right.
        + apply (In' c0); auto. rewrite ids_cons. now left.
      - intros J. apply in_flat_map in J. destruct J as (c & Ic & J). apply in_map_iff in Ic. destruct Ic as (c0 & <- & Ic). rewrite stateful_rename in J.
        apply in_map_iff in J. destruct J as (z & Ez & J). apply (C2 z).
        + apply (In' c0); auto. now apply stateful_ids.
        + rewrite Ez. now left.
    Qed.
  End Copy.

  (** *** parameters *)
  Lemma leaves_rename f : forall m : node K, leaves (rename f m) = map (fun p => (f (fst p), snd p)) (leaves m).
  Proof.
    refine (node_ind2 (fun m => leaves (rename f m) = map (fun p => (f (fst p), snd p)) (leaves m))
      (fun ms => flat_map leaves (map (rename f) ms) = map (fun p => (f (fst p), snd p)) (flat_map leaves ms)) _ _ _ _ _ _); cbn; intros; try congruence.
    rewrite map_app. congruence.
  Qed.
  Lemma lp_rename f (D : list nat) (ls : list (nat * leaf K)) : (forall o o', In o D -> In o' D -> f o = f o' -> o = o') ->
    incl (map fst ls) D -> forall seen, incl seen D -> snd (lp (map (fun p => (f (fst p), snd p)) ls) (map f seen)) = snd (lp ls seen).
  Proof.
    intros I. induction ls as [|[o l] ls IH]; intros Q seen Qs; [reflexivity|]. cbn [map lp fst snd] in *.
    assert (Io : In o D) by (apply Q; now left). assert (Qt : incl (map fst ls) D) by (intros z Iz; apply Q; now right).
    assert (E : existsb (Nat.eqb (f o)) (map f seen) = existsb (Nat.eqb o) seen).
    { apply Bool.eq_iff_eq_true. rewrite !seen_in. split; [|apply in_map]. intros J. apply in_map_iff in J. destruct J as (z & Ez & J).
      assert (z = o) by (apply I; auto). now subst. }
    rewrite E. clear E. destruct (existsb (Nat.eqb o) seen); [apply IH; auto|]. specialize (IH Qt (o :: seen)). cbn [map] in IH.
    assert (Qo : incl (o :: seen) D) by (intros z [<-|Iz]; auto). specialize (IH Qo).
    destruct (lp (map _ ls) _), (lp ls (o :: seen)). cbn [snd] in *. now rewrite IH.
  Qed.
  Lemma leaves_ids : forall (m : node K), incl (map fst (leaves m)) (ids m).
  Proof.
    refine (node_ind2 (fun m => incl (map fst (leaves m)) (ids m)) (fun ms => incl (map fst (flat_map leaves ms)) (flat_map ids ms)) _ _ _ _ _ _); cbn; intros.
    - apply incl_refl.
    - intros z [].
    - now apply incl_tl.
    - now apply incl_tl.
    - intros z [].
    - rewrite map_app. apply incl_app; [now apply incl_appl|now apply incl_appr].
  Qed.
  Lemma copy_weight H f (m : node K) : copies H f m -> oget_weight (rename f m) = oget_weight m.
  Proof.
    intros (C & _). unfold oget_weight. rewrite !oparams_lp, leaves_rename.
    pose proof (lp_rename f (ids m) (leaves m) C (leaves_ids m) [] (incl_nil_l _)) as E. cbn [map] in E. now rewrite E.
  Qed.

  (** *** forward products *)
  Lemma copy_forward H f (m : node K) g g' x : snd (oforward H (rename f m) g x) = snd (oforward H m g' x).
  Proof. rewrite (oforward_pure H (rename f m) g st0), (oforward_pure H m g' st0). now rewrite erase_rename. Qed.
  Lemma copy_jvp H f (m : node K) g g' x v val w : snd (ojvp H (rename f m) g x val v w) = snd (ojvp H m g' x val v w).
  Proof. rewrite (ojvp_any H (rename f m) g st0), (ojvp_any H m g' st0). now rewrite erase_rename. Qed.
  Lemma copy_jmp H f (m : node K) g g' x M w : answers (erase m) -> snd (ojmp H (rename f m) g x None (Some M) w) = snd (ojmp H m g' x None (Some M) w).
  Proof.
    intros A. rewrite (ojmp_any H (rename f m)) with (s := st0); [|now rewrite erase_rename|now left].
    rewrite (ojmp_any H m A g' st0); [|now left]. now rewrite erase_rename.
  Qed.
End ObjCopy.
