(** The storage model computes what Module.v computes, whatever tensors share storage. *)
From Coq Require Import List Arith ZArith Lia.
From Verif Require Import Scalar Tensor Conv Abstract Simple LinearLayer ConvLayer PoolLayer Module.
From Verif Require Import HooksSpec Storage StorageSpec StorageBase StorageFwd StorageLoops StorageSum StorageJmj StorageLeaf StorageBack StorageForw StorageTwo.
Import ListNotations.
Local Open Scope nat_scope.
Local Open Scope list_scope.

Section StorageMain.
  Context {K} `{CR : CRing K}.
  Notation T := (tensor K).
  Notation mem := (mem K).
  Implicit Types g : mem.
  Variable cg : ref -> bool.

  Lemma Rr_live g x : rl x < len g -> Rr g x (rd g x).
  Proof. split; auto. Qed.
  Lemma Ro_live g o : live g (olocs o) -> Ro g o (option_map (rd g) o).
  Proof. destruct o as [r|]; cbn; auto. intros L. split; [auto|]. apply L. now left. Qed.
  Lemma Rv_live g v : live g (vlocs v) -> Rv g v (vl g v).
  Proof. intros L. split; auto. Qed.

  Definition grun g (s : hst) (c : call ref hvalue) g' s' r (p : st K * res (value K)) : Prop :=
    keeps g g' /\ Rs g' s' (fst p) /\ RR (Rv g') r (snd p) /\ grows g g' (locs s ++ [rl (cx c)]) (locs s') /\
    (forall q, r = Ok q -> product c -> outv g (carg c) (cwrt c) g' (locs s') q) /\
    (forall q, r = Ok q -> ~ product c -> forall l, In l (vlocs q) -> l = rl (cx c) \/ len g <= l < len g').

  Lemma hrun_ok m g s c g' s' r : answers m -> live g (locs s) -> live g (clocs c) ->
    hrun cg m g s c = (g', s', r) -> grun g s c g' s' r (vrun m (er g s) (creads g c)).
  Proof.
    intros A Ls Lc E. assert (R : Rs g s (er g s)) by (split; auto).
    assert (Lx : rl (cx c) < len g) by (apply Lc; now left).
    assert (Lv : live g (olocs (cval c))) by (intros l Hl; apply Lc; right; apply in_or_app; auto).
    assert (La : live g (vlocs (carg c))) by (intros l Hl; apply Lc; right; apply in_or_app; auto).
    pose proof (Rr_live g _ Lx) as Rx. pose proof (Ro_live g _ Lv) as Rval. clear Lc.
    assert (CO : forall x a w g1 s1 r1 p, Call Ro hof_opt g s x a w g1 s1 r1 p ->
      keeps g g1 /\ Rs g1 s1 (fst p) /\ RR (Rv g1) (q <- r1 ;; Ok (hof_opt q)) (q <- snd p ;; Ok (of_opt q)) /\
      grows g g1 (locs s ++ [rl x]) (locs s1) /\
      (forall q, (q <- r1 ;; Ok (hof_opt q)) = Ok q -> outv g a w g1 (locs s1) q)).
    { intros x a w g1 s1 r1 [p1 p2] C. destruct (Call_V _ _ _ _ _ _ _ _ _ _ C) as [(K1 & R1 & Rr1 & G1 & O1) _].
      cbn [fst snd] in *. split; [auto|]. split; [auto|]. split; [auto|]. split; [auto|]. intros q Hq. now apply O1. }
    destruct c as [x|x val w|x val v w|x val v w|x val a w|x val a w|x val a w fd td db|x val a w fd td db];
      cbn [hrun vrun creads cmap cx cval carg cwrt product] in *; unfold grun; cbn [cx carg cwrt product].
    - destruct (hforward cg m g s x) as [[g1 s1] r1] eqn:E1. injection E as <- <- <-.
      destruct (hforward_ok cg m _ _ _ _ _ _ _ _ R Rx E1) as (K1 & R1 & Rr1 & G1 & Y1).
      destruct (forward m (er g s) (rd g x)) as [vs1 vr1]. cbn [fst snd] in *.
      split; [auto|]. split; [auto|]. split; [|split; [auto|split; [tauto|]]].
      + destruct r1 as [q|], vr1 as [vq|]; cbn in Rr1 |- *; auto. exact (Ro_Rv g1 (Some q) (Some vq) Rr1).
      + intros q Hq _ l Hl. destruct r1 as [y|]; [|discriminate]. cbn in Hq. injection Hq as <-.
        destruct Hl as [<-|[]]. now apply Y1.
    - destruct (hjacobian cg m g s x val w) as [[g1 s1] r1] eqn:E1. injection E as <- <- <-.
      destruct (CO _ _ _ _ _ _ _ (hjacobian_ok cg m A _ _ _ _ _ _ _ _ _ _ _ R Rx Rval E1)) as (K1 & R1 & Rr1 & G1 & O1).
      destruct (jacobian m (er g s) (rd g x) (option_map (rd g) val) w) as [vs1 vr1]. cbn [fst snd] in *.
      split; [auto|]. split; [auto|]. split; [auto|]. split; [auto|]. split; [auto|tauto].
    - destruct (hjvp cg m g s x val v w) as [[g1 s1] r1] eqn:E1. injection E as <- <- <-.
      assert (Ra : Rr g v (rd g v)) by (apply Rr_live, La; now left).
      destruct (CO _ _ _ _ _ _ _ (hjvp_ok cg m A _ _ _ _ _ _ _ _ _ _ _ _ _ R Rx Rval Ra E1)) as (K1 & R1 & Rr1 & G1 & O1).
      destruct (jvp m (er g s) (rd g x) (option_map (rd g) val) (rd g v) w) as [vs1 vr1]. cbn [fst snd] in *.
      split; [auto|]. split; [auto|]. split; [auto|]. split; [auto|]. split; [auto|tauto].
    - destruct (hvjp cg m g s x val v w) as [[g1 s1] r1] eqn:E1. injection E as <- <- <-.
      assert (Ra : Rr g v (rd g v)) by (apply Rr_live, La; now left).
      destruct (CO _ _ _ _ _ _ _ (hvjp_ok cg m A _ _ _ _ _ _ _ _ _ _ _ _ _ R Rx Rval Ra E1)) as (K1 & R1 & Rr1 & G1 & O1).
      destruct (vjp m (er g s) (rd g x) (option_map (rd g) val) (rd g v) w) as [vs1 vr1]. cbn [fst snd] in *.
      split; [auto|]. split; [auto|]. split; [auto|]. split; [auto|]. split; [auto|tauto].
    - destruct (hjmp cg m g s x val a w) as [[g1 s1] r1] eqn:E1. injection E as <- <- <-.
      assert (Ra : Ro g a (option_map (rd g) a)) by (apply Ro_live; destruct a; exact La).
      destruct (CO _ _ _ _ _ _ _ (hjmp_ok cg m A _ _ _ _ _ _ _ _ _ _ _ _ _ R Rx Rval Ra E1)) as (K1 & R1 & Rr1 & G1 & O1).
      destruct (jmp m (er g s) (rd g x) (option_map (rd g) val) (option_map (rd g) a) w) as [vs1 vr1]. cbn [fst snd] in *.
      split; [auto|]. split; [auto|]. split; [auto|]. split; [auto|]. split; [auto|tauto].
    - destruct (hmjp cg m g s x val a w) as [[g1 s1] r1] eqn:E1. injection E as <- <- <-.
      assert (Ra : Ro g a (option_map (rd g) a)) by (apply Ro_live; destruct a; exact La).
      destruct (CO _ _ _ _ _ _ _ (hmjp_ok cg m A _ _ _ _ _ _ _ _ _ _ _ _ _ R Rx Rval Ra E1)) as (K1 & R1 & Rr1 & G1 & O1).
      destruct (mjp m (er g s) (rd g x) (option_map (rd g) val) (option_map (rd g) a) w) as [vs1 vr1]. cbn [fst snd] in *.
      split; [auto|]. split; [auto|]. split; [auto|]. split; [auto|]. split; [auto|tauto].
    - destruct (hjmjTp_ok cg m A _ _ _ _ _ _ _ _ _ _ _ _ _ _ _ _ R Rx Rval (Rv_live g a La) E) as ((K1 & R1 & Rr1 & G1 & O1) & _).
      split; [auto|]. split; [auto|]. split; [auto|]. split; [auto|]. split; [intros q Hq _; now apply O1|tauto].
    - destruct (hjTmjp_ok cg m A _ _ _ _ _ _ _ _ _ _ _ _ _ _ _ _ R Rx Rval (Rv_live g a La) E) as (K1 & R1 & Rr1 & G1 & O1).
      split; [auto|]. split; [auto|]. split; [auto|]. split; [auto|]. split; [intros q Hq _; now apply O1|tauto].
  Qed.

  (** *** One call *)
  Theorem run_frame m g s c g' s' r : answers m -> live g (locs s) -> live g (clocs c) ->
    hrun cg m g s c = (g', s', r) ->
    (forall t, rl t < len g -> rd g' t = rd g t) /\ touched g' = touched g.
  Proof.
    intros A Ls Lc E. destruct (hrun_ok m g s c g' s' r A Ls Lc E) as (Kp & _).
    split; [|apply Kp]. intros t Ht. apply rd_ext, Kp; auto. discriminate.
  Qed.
  Theorem run_values m g s c g' s' r : answers m -> live g (locs s) -> live g (clocs c) ->
    hrun cg m g s c = (g', s', r) ->
    vrun m (er g s) (creads g c) = (er g' s', rreads g' r).
  Proof.
    intros A Ls Lc E. destruct (hrun_ok m g s c g' s' r A Ls Lc E) as (Kp & [R _] & Rr & _).
    destruct (vrun m (er g s) (creads g c)) as [vs vr]. cbn [fst snd] in *. subst vs. f_equal.
    destruct r as [q|e], vr as [vq|e']; cbn in Rr |- *; try contradiction; [|congruence]. now destruct Rr as [<- _].
  Qed.
  Theorem run_live m g s c g' s' r : answers m -> live g (locs s) -> live g (clocs c) ->
    hrun cg m g s c = (g', s', r) -> live g' (locs s') /\ live g' (rlocs r) /\ len g <= len g'.
  Proof.
    intros A Ls Lc E. destruct (hrun_ok m g s c g' s' r A Ls Lc E) as (Kp & [_ R] & Rr & _).
    split; [exact R|]. split; [|apply Kp]. destruct r as [q|e]; cbn; [|intros l []].
    destruct (snd (vrun m (er g s) (creads g c))); cbn in Rr; [|contradiction]. destruct Rr as [_ Rr]. exact Rr.
  Qed.

  (** *** Sessions *)
  Lemma er_live g g' s : (forall t, rl t < len g -> rd g' t = rd g t) -> live g (locs s) -> er g' s = er g s.
  Proof.
    intros F. induction s as [fm i ks IH] using hst_ind'. cbn. intros L. f_equal.
    - apply map_ext_in. intros r Hr. apply F, L, in_or_app. left. now apply in_map.
    - apply map_ext_in. intros k Hk. rewrite Forall_forall in IH. apply IH; auto.
      intros l Hl. apply L, in_or_app. right. apply in_flat_map. eauto.
  Qed.
  Lemma vl_live g g' v : (forall t, rl t < len g -> rd g' t = rd g t) -> live g (vlocs v) -> vl g' v = vl g v.
  Proof.
    intros F. induction v as [|r|l IH] using hvalue_ind'; cbn; intros L; f_equal.
    - apply F, L. now left.
    - apply map_ext_in. intros k Hk. rewrite Forall_forall in IH. apply IH; auto.
      intros i Hi. apply L, in_flat_map. eauto.
  Qed.
  Lemma creads_live g g' c : (forall t, rl t < len g -> rd g' t = rd g t) -> live g (clocs c) -> creads g' c = creads g c.
  Proof.
    intros F L. assert (Lx : rl (cx c) < len g) by (apply L; now left).
    assert (Lv : live g (olocs (cval c))) by (intros l Hl; apply L; right; apply in_or_app; auto).
    assert (La : live g (vlocs (carg c))) by (intros l Hl; apply L; right; apply in_or_app; auto).
    assert (Fo : forall o, live g (olocs o) -> option_map (rd g') o = option_map (rd g) o).
    { intros [o|] Lo; cbn; [|auto]. f_equal. apply F, Lo. now left. }
    destruct c; cbn [creads cmap cx cval carg] in *; rewrite ?(F _ Lx), ?(Fo _ Lv); auto.
    - f_equal. apply F, La. now left.
    - f_equal. apply F, La. now left.
    - rewrite (Fo m); auto. destruct m; exact La.
    - rewrite (Fo m); auto. destruct m; exact La.
    - now rewrite (vl_live g g' m F La).
    - now rewrite (vl_live g g' m F La).
  Qed.

  Theorem session_ok m g s cs g' s' rs : answers m -> live g (locs s) -> session cg m g s cs g' s' rs ->
    (forall t, rl t < len g -> rd g' t = rd g t) /\ touched g' = touched g /\ len g <= len g' /\
    live g' (locs s') /\ Forall (fun r => live g' (rlocs r)) rs /\
    vsession m (er g s) (map (creads g') cs) = (er g' s', map (rreads g') rs).
  Proof.
    intros A. intros L Hs. induction Hs as [g s|g s c cs g1 s1 r g2 s2 rs Lc E Hs IH]; [cbn; auto 10|].
    destruct (run_frame _ _ _ _ _ _ _ A L Lc E) as [F1 T1]. pose proof (run_values _ _ _ _ _ _ _ A L Lc E) as V1.
    destruct (run_live _ _ _ _ _ _ _ A L Lc E) as (L1 & Lr & Le1).
    destruct (IH L1) as (F2 & T2 & Le2 & L2 & Lrs & V2).
    assert (F : forall t, rl t < len g -> rd g2 t = rd g t) by (intros t Ht; rewrite F2, F1; auto; lia).
    split; [auto|]. split; [congruence|]. split; [lia|]. split; [auto|]. split.
    - constructor; [|auto]. intros l Hl. apply Lr in Hl. lia.
    - cbn [map vsession]. rewrite (creads_live g g2 c F Lc), V1, V2. cbn [map]. do 2 f_equal.
      destruct r as [q|e]; cbn; [|reflexivity]. f_equal. symmetry. apply (vl_live g1 g2); auto.
  Qed.

  (** *** What a result shares *)
  Theorem run_apart m g s c g' s' q : answers m -> live g (locs s) -> live g (clocs c) -> product c ->
    hrun cg m g s c = (g', s', Ok q) ->
    forall l, In l (vlocs q) -> (len g <= l /\ ~ In l (locs s')) \/ (cwrt c = Input /\ In l (vlocs (carg c))).
  Proof.
    intros A Ls Lc P E l Hl. destruct (hrun_ok m g s c g' s' _ A Ls Lc E) as (_ & _ & _ & _ & O & _).
    destruct (O q eq_refl P) as [O1 _]. destruct (O1 l Hl) as [[B N]|]; [left; split; [lia|auto]|auto].
  Qed.
  Theorem run_state m g s c g' s' r : answers m -> live g (locs s) -> live g (clocs c) ->
    hrun cg m g s c = (g', s', r) ->
    forall l, In l (locs s') -> In l (locs s) \/ l = rl (cx c) \/ len g <= l.
  Proof.
    intros A Ls Lc E l Hl. destruct (hrun_ok m g s c g' s' r A Ls Lc E) as (_ & _ & _ & G & _).
    apply G in Hl as [Hl|]; [|right; right; lia]. apply in_app_or in Hl as [|[<-|[]]]; auto.
  Qed.

  (** an in-place operation of the caller changes the tensors with the same storage only *)
  Lemma write_other g a vs l : l <> rl a -> store (write g a vs) l = store g l.
  Proof. intros N. unfold store, write; cbn. now apply set_store_other. Qed.
  Lemma write_rd_other g a vs t : rl t <> rl a -> rd (write g a vs) t = rd g t.
  Proof. intros N. now apply rd_ext, write_other. Qed.
  Lemma write_er g a vs s : ~ In (rl a) (locs s) -> er (write g a vs) s = er g s.
  Proof. intros N. apply er_ext. intros l Hl. apply write_other. intros ->. auto. Qed.
  Lemma write_vl g a vs v : ~ In (rl a) (vlocs v) -> vl (write g a vs) v = vl g v.
  Proof. intros N. apply vl_ext. intros l Hl. apply write_other. intros ->. auto. Qed.
  Lemma write_len g a vs : len (write g a vs) = len g.
  Proof. unfold len, write; cbn. apply set_store_len. Qed.
  Lemma write_creads g a vs c : ~ In (rl a) (clocs c) -> creads (write g a vs) c = creads g c.
  Proof.
    intros N. unfold clocs in N. cbn [In] in N. rewrite in_app_iff in N.
    assert (Fo : forall o, ~ In (rl a) (olocs o) -> option_map (rd (write g a vs)) o = option_map (rd g) o).
    { intros [o|] No; cbn; [|auto]. f_equal. apply write_rd_other. cbn in No. tauto. }
    destruct c; cbn [creads cmap cx cval carg] in *; rewrite ?(write_rd_other g a vs x), ?(Fo val) by tauto; auto.
    - rewrite (write_rd_other g a vs v); auto. cbn in N. tauto.
    - rewrite (write_rd_other g a vs v); auto. cbn in N. tauto.
    - rewrite (Fo m); auto. destruct m; cbn in *; tauto.
    - rewrite (Fo m); auto. destruct m; cbn in *; tauto.
    - rewrite (write_vl g a vs m); auto; tauto.
    - rewrite (write_vl g a vs m); auto; tauto.
  Qed.

  (** the result of a product may be changed in place: the model, its stored tensors and every other tensor of
      the caller stay as they are, unless they share storage with the vector or matrix that was multiplied *)
  Theorem result_free m g s c g' s' q vs : answers m -> live g (locs s) -> live g (clocs c) -> product c ->
    hrun cg m g s c = (g', s', Ok (HT q)) ->
    (cwrt c = Input -> forall l, In l (vlocs (carg c)) -> ~ In l (locs s) /\ l <> rl (cx c)) ->
    er (write g' q vs) s' = er g' s' /\
    ((cwrt c = Input -> exists a, carg c = HT a /\ ordinary g a) -> touched (write g' q vs) = touched g) /\
    (forall t, rl t < len g -> (cwrt c = Input -> ~ In (rl t) (vlocs (carg c))) -> rd (write g' q vs) t = rd g t).
  Proof.
    intros A Ls Lc P E D. pose proof (run_apart _ _ _ _ _ _ _ A Ls Lc P E (rl q) (or_introl eq_refl)) as Ap.
    pose proof (run_state _ _ _ _ _ _ _ A Ls Lc E (rl q)) as St. destruct (run_frame _ _ _ _ _ _ _ A Ls Lc E) as [F Tc].
    split; [|split].
    - apply write_er. intros I. destruct Ap as [[_ N]|[W Ia]]; [auto|].
      destruct (D W _ Ia) as [Na Nb]. destruct (St I) as [|[|]]; auto.
      assert (rl q < len g); [|lia]. apply Lc. right. apply in_or_app. auto.
    - intros Or. destruct (hrun_ok m g s c g' s' _ A Ls Lc E) as (_ & _ & _ & _ & O & _).
      destruct (O _ eq_refl P) as [_ O2]. cbn in O2. rewrite <- Tc. unfold write; cbn [touched].
      assert (Hp : par q = false); [|now rewrite Hp].
      destruct O2 as [Pq|[W O2]]; [apply Pq|]. destruct (Or W) as (a & Ea & Oa). rewrite Ea in O2.
      destruct O2 as [|(a0 & Ea0 & I)]; [discriminate|]. injection Ea0 as <-. now apply I.
    - intros t Ht Nt. rewrite write_rd_other; [auto|]. intros Eq. destruct Ap as [[B _]|[W Ia]]; [lia|]. apply (Nt W). now rewrite Eq.
  Qed.

  (** a tensor of the caller whose storage the model does not hold may be changed in place between two calls *)
  Theorem caller_free m g s a vs c : answers m -> live g (locs s) -> live g (clocs c) ->
    ~ In (rl a) (locs s) -> ~ In (rl a) (clocs c) -> par a = false ->
    forall g1 s1 r1 g2 s2 r2, hrun cg m g s c = (g1, s1, r1) -> hrun cg m (write g a vs) s c = (g2, s2, r2) ->
    er g2 s2 = er g1 s1 /\ rreads g2 r2 = rreads g1 r1 /\ touched g2 = touched g1.
  Proof.
    intros A Ls Lc Ns Nc Np g1 s1 r1 g2 s2 r2 E1 E2.
    assert (X := run_values _ _ _ _ _ _ _ A Ls Lc E1).
    assert (Ls2 : live (write g a vs) (locs s)) by (intros l Hl; rewrite write_len; auto).
    assert (Lc2 : live (write g a vs) (clocs c)) by (intros l Hl; rewrite write_len; auto).
    assert (Y := run_values _ _ _ _ _ _ _ A Ls2 Lc2 E2).
    rewrite (write_er g a vs s Ns), (write_creads g a vs c Nc), X in Y. injection Y as -> ->.
    split; [auto|]. split; [auto|]. destruct (run_frame _ _ _ _ _ _ _ A Ls Lc E1) as [_ ->].
    destruct (run_frame _ _ _ _ _ _ _ A Ls2 Lc2 E2) as [_ ->]. unfold write; cbn. now rewrite Np.
  Qed.

  (** *** Programs with in-place operations of the caller *)
  Lemma alloc_len g t : len (fst (alloc g t)) = S (len g).
  Proof. unfold len, alloc; cbn. rewrite app_length; cbn. lia. Qed.
  Lemma alloc_store g t l : l < len g -> store (fst (alloc g t)) l = store g l.
  Proof. intros Hl. unfold store, alloc; cbn. now apply app_nth1. Qed.

  Lemma mine_ok m g s free c g' s' r : answers m -> live g (locs s) -> live g (clocs c) ->
    hrun cg m g s c = (g', s', r) ->
    (forall l, In l free -> l < len g /\ ~ In l (locs s)) ->
    forall l, In l (mine c r free) -> l < len g' /\ ~ In l (locs s').
  Proof.
    intros A Ls Lc E D l Hl. unfold mine in Hl. apply filter_In in Hl as [Hl Nx].
    apply Bool.negb_true_iff, Nat.eqb_neq in Nx.
    destruct (run_live _ _ _ _ _ _ _ A Ls Lc E) as (_ & Lr & Le). apply in_app_or in Hl as [Hl|Hl].
    - destruct (D l Hl) as [B N]. split; [lia|]. intros I.
      destruct (run_state _ _ _ _ _ _ _ A Ls Lc E l I) as [|[|]]; auto. lia.
    - assert (Hl2 : product c /\ In l (filter (fun l => negb (existsb (Nat.eqb l) (vlocs (carg c)))) (rlocs r)))
        by (destruct c; cbn in Hl |- *; tauto).
      clear Hl. destruct Hl2 as [P Hl]. apply filter_In in Hl as [Hl Na]. split; [now apply Lr|].
      destruct r as [q|e]; cbn in Hl; [|contradiction].
      destruct (run_apart _ _ _ _ _ _ _ A Ls Lc P E l Hl) as [[_ N]|[_ I]]; [auto|].
      exfalso. apply Bool.negb_true_iff in Na.
      assert (X : existsb (Nat.eqb l) (vlocs (carg c)) = true) by (apply existsb_exists; exists l; split; [auto|apply Nat.eqb_refl]).
      congruence.
  Qed.

  Theorem program_ok m g s free cs g' s' rs : answers m -> live g (locs s) ->
    (forall l, In l free -> l < len g /\ ~ In l (locs s)) -> program cg m g s free cs g' s' rs ->
    vsession m (er g s) cs = (er g' s', rs) /\ touched g' = touched g.
  Proof.
    intros A L D Hs. induction Hs as [g s free|g s free c cs g1 s1 r g2 s2 rs Lc E Hs IH|g s free t cs g2 s2 rs Hs IH|g s free a vs cs g2 s2 rs Ia Np Hs IH].
    - auto.
    - destruct (run_frame _ _ _ _ _ _ _ A L Lc E) as [F1 T1]. pose proof (run_values _ _ _ _ _ _ _ A L Lc E) as V1.
      destruct (run_live _ _ _ _ _ _ _ A L Lc E) as (L1 & _ & _).
      destruct (IH L1 (mine_ok _ _ _ _ _ _ _ _ A L Lc E D)) as [V2 T2]. cbn. rewrite V1, V2. split; [auto|congruence].
    - destruct IH as [V T].
      + intros l Hl. rewrite alloc_len. apply L in Hl. lia.
      + intros l [<-|Hl]; rewrite alloc_len.
        * change (rl (snd (alloc g t))) with (len g). split; [lia|]. intros I. apply L in I. lia.
        * destruct (D l Hl). split; [lia|auto].
      + rewrite (er_ext g) in V; [split; [auto|exact T]|]. intros l Hl. apply alloc_store. auto.
    - destruct IH as [V T].
      + intros l Hl. rewrite write_len. auto.
      + intros l Hl. rewrite write_len. auto.
      + rewrite write_er in V by (now apply D). split; [exact V|]. rewrite T. unfold write; cbn. now rewrite Np.
  Qed.
End StorageMain.
