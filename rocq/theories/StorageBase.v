(** Facts about storages, views and in-place writes (Storage.v). *)
From Coq Require Import String Ascii List Arith ZArith Lia Bool FinFun.
From Verif Require Import Scalar Tensor Conv Abstract Simple LinearLayer ConvLayer PoolLayer Module.
From Verif Require Import TensorLemmas OpLemmas EinsumLemmas Storage.
Import ListNotations.
Local Open Scope nat_scope.
Local Open Scope list_scope.

Section StorageBase.
  Context {K} `{CR : CRing K}.
  Notation T := (tensor K).
  Notation mem := (mem K).
  Implicit Types g : mem.

  (** *** Reading *)
  Lemma get_tmap (d : list K) (t : tensor (option nat)) idx :
    get n0 (tmap (look d) t) idx = look d (get None t idx).
  Proof. unfold get, tmap; cbn. now rewrite <- (map_nth (look d)). Qed.
  Lemma tmap_tab {A B} (f : A -> B) s h : tmap f (tab s h) = tab s (fun i => f (h i)).
  Proof. unfold tmap, tab; cbn. now rewrite map_map. Qed.
  Lemma tab_ext' {A} s (f h : list nat -> A) : (forall i, f i = h i) -> tab s f = tab s h.
  Proof. intros E. unfold tab. f_equal. apply map_ext; auto. Qed.
  Lemma slice_tmap (d : list K) k a e t :
    slice n0 k a e (tmap (look d) t) = i <- slice None k a e t ;; Ok (tmap (look d) i).
  Proof.
    unfold slice, rank, dim. cbn [tmap shape]. destruct Nat.ltb; cbn; [|reflexivity].
    f_equal. rewrite tmap_tab. apply tab_ext'. intros i. apply get_tmap.
  Qed.
  Lemma transpose_tmap (d : list K) t :
    transpose12 n0 (tmap (look d) t) = i <- transpose12 None t ;; Ok (tmap (look d) i).
  Proof.
    unfold transpose12. cbn [tmap shape]. destruct (shape t) as [|b [|n [|m [|]]]]; cbn; try reflexivity.
    f_equal. rewrite tmap_tab. apply tab_ext'. intros i. apply get_tmap.
  Qed.

  (** *** Storages *)
  Definition wit {A} (r : res A) : Prop := match r with Ok _ => True | _ => False end.
  Lemma look_seq (d : list K) : map (look d) (map Some (seq 0 (List.length d))) = d.
  Proof.
    rewrite map_map. cbn. apply nth_ext with (d := n0) (d' := n0); [now rewrite map_length, seq_length|].
    intros i Hi. rewrite map_length, seq_length in Hi.
    rewrite nth_indep with (d' := nth 0 d n0) by now rewrite map_length, seq_length.
    rewrite (map_nth (fun i => nth i d n0)). now rewrite seq_nth.
  Qed.
  Lemma len_alloc g t : len (fst (alloc g t)) = S (len g).
  Proof. unfold len, alloc; cbn. rewrite app_length; cbn. lia. Qed.
  Lemma store_alloc g t l : l < len g -> store (fst (alloc g t)) l = store g l.
  Proof. intros L. unfold store, alloc; cbn. now rewrite app_nth1. Qed.
  Lemma rd_alloc g t : rd (fst (alloc g t)) (snd (alloc g t)) = t.
  Proof.
    unfold rd, store, alloc, tmap, len; cbn. rewrite app_nth2, Nat.sub_diag by lia. cbn.
    rewrite look_seq. now destruct t.
  Qed.

  (** the memory only changes at the storage A *)
  Record keepsx (A : option nat) g g' : Prop := {
    k_len : len g <= len g';
    k_store : forall l, l < len g -> Some l <> A -> store g' l = store g l;
    k_par : touched g' = touched g
  }.
  Notation keeps := (keepsx None).
  Lemma keeps_refl A g : keepsx A g g.
  Proof. split; auto. Qed.
  Lemma keeps_weak A g g' : keeps g g' -> keepsx A g g'.
  Proof. intros [? S ?]; split; auto. intros; apply S; auto; discriminate. Qed.
  Lemma keeps_trans A g1 g2 g3 : keepsx A g1 g2 -> keepsx A g2 g3 -> keepsx A g1 g3.
  Proof.
    intros [L S P] [L' S' P']; split; [lia| |congruence].
    intros. rewrite S', S; auto; lia.
  Qed.
  (** the second step may change a storage that did not exist at the beginning *)
  Lemma keeps_trans_new A B g1 g2 g3 : keepsx A g1 g2 -> keepsx B g2 g3 ->
    (forall l, B = Some l -> A = Some l \/ len g1 <= l) -> keepsx A g1 g3.
  Proof.
    intros [L S P] [L' S' P'] Hb; split; [lia| |congruence].
    intros l Hl Ha. rewrite S', S; auto; [lia|]. intros E. symmetry in E.
    destruct (Hb _ E) as [E'|]; [congruence|lia].
  Qed.
  Lemma keeps_alloc g t : keeps g (fst (alloc g t)).
  Proof. split; [rewrite len_alloc; lia| |reflexivity]. intros; now apply store_alloc. Qed.

  (** *** What a tensor object, a state, a value hold *)
  Definition Rr g (r : ref) (t : T) : Prop := rd g r = t /\ rl r < len g.
  Definition Ro g (o : option ref) (v : option T) : Prop :=
    match o, v with Some r, Some t => Rr g r t | None, None => True | _, _ => False end.
  Definition Rs g (s : hst) (v : st K) : Prop := er g s = v /\ (forall l, In l (locs s) -> l < len g).
  Definition Rk g (ks : list hst) (vs : list (st K)) : Prop :=
    map (er g) ks = vs /\ (forall l, In l (flat_map locs ks) -> l < len g).
  Definition Rf g (fm : list ref) (vs : list T) : Prop :=
    map (rd g) fm = vs /\ (forall l, In l (map rl fm) -> l < len g).
  Definition Rv g (v : hvalue) (t : value K) : Prop := vl g v = t /\ (forall l, In l (vlocs v) -> l < len g).
  Definition Rvs g (v : list hvalue) (t : list (value K)) : Prop :=
    map (vl g) v = t /\ (forall l, In l (flat_map vlocs v) -> l < len g).
  Definition RR {A B} (P : A -> B -> Prop) (r : res A) (v : res B) : Prop :=
    match r, v with Ok a, Ok b => P a b | Raise e, Raise e' => e = e' | _, _ => False end.

  Fixpoint hst_ind' (P : hst -> Prop)
    (f : forall fm i ks, Forall P ks -> P (HSt fm i ks)) (s : hst) : P s :=
    match s with
    | HSt fm i ks => f fm i ks ((fix go l : Forall P l :=
                                   match l with [] => Forall_nil _ | k :: l => Forall_cons _ (hst_ind' P f k) (go l) end) ks)
    end.
  Fixpoint hvalue_ind' (P : hvalue -> Prop) (fn : P HN) (ft : forall r, P (HT r))
    (f : forall l, Forall P l -> P (HL l)) (v : hvalue) : P v :=
    match v with
    | HN => fn | HT r => ft r
    | HL l => f l ((fix go l : Forall P l :=
                      match l with [] => Forall_nil _ | k :: l => Forall_cons _ (hvalue_ind' P fn ft f k) (go l) end) l)
    end.

  Lemma rd_ext g g' r : store g' (rl r) = store g (rl r) -> rd g' r = rd g r.
  Proof. unfold rd. now intros ->. Qed.
  Lemma er_ext g g' s : (forall l, In l (locs s) -> store g' l = store g l) -> er g' s = er g s.
  Proof.
    induction s as [fm i ks IH] using hst_ind'. cbn. intros E. f_equal.
    - apply map_ext_in. intros r Hr. apply rd_ext, E. apply in_or_app. left. now apply in_map.
    - apply map_ext_in. intros k Hk. rewrite Forall_forall in IH. apply IH; auto.
      intros l Hl. apply E, in_or_app. right. apply in_flat_map. eauto.
  Qed.
  Lemma vl_ext g g' v : (forall l, In l (vlocs v) -> store g' l = store g l) -> vl g' v = vl g v.
  Proof.
    induction v as [|r|l IH] using hvalue_ind'; cbn; intros E; f_equal.
    - now apply rd_ext, E; left.
    - apply map_ext_in. intros k Hk. rewrite Forall_forall in IH. apply IH; auto.
      intros x Hx. apply E, in_flat_map. eauto.
  Qed.

  Definition out (A : option nat) (L : list nat) : Prop := forall l, In l L -> Some l <> A.
  Lemma out_none L : out None L. Proof. intros l _; discriminate. Qed.
  Lemma out_app A L L' : out A (L ++ L') <-> out A L /\ out A L'.
  Proof.
    unfold out. split; [intros O; split; intros; apply O, in_or_app; auto|].
    intros [O O'] l Hl. apply in_app_or in Hl as [|]; auto.
  Qed.
  Lemma Rr_mono A g g' r t : keepsx A g g' -> out A [rl r] -> Rr g r t -> Rr g' r t.
  Proof.
    intros [L S _] O [<- Hl]. split; [|lia]. apply rd_ext, S; auto. apply O; now left.
  Qed.
  Lemma Rs_mono A g g' s v : keepsx A g g' -> out A (locs s) -> Rs g s v -> Rs g' s v.
  Proof.
    intros [L S _] O [<- Hl]. split; [|intros l Hi; specialize (Hl l Hi); lia].
    apply er_ext. intros; apply S; auto.
  Qed.
  Lemma Rk_mono A g g' s v : keepsx A g g' -> out A (flat_map locs s) -> Rk g s v -> Rk g' s v.
  Proof.
    intros [L S _] O [<- Hl]. split; [|intros l Hi; specialize (Hl l Hi); lia].
    apply map_ext_in. intros k Hk. apply er_ext. intros l Hi.
    assert (In l (flat_map locs s)) by (apply in_flat_map; eauto). apply S; auto.
  Qed.
  Lemma Rf_mono A g g' s v : keepsx A g g' -> out A (map rl s) -> Rf g s v -> Rf g' s v.
  Proof.
    intros [L S _] O [<- Hl]. split; [|intros l Hi; specialize (Hl l Hi); lia].
    apply map_ext_in. intros k Hk. apply rd_ext.
    assert (In (rl k) (map rl s)) by now apply in_map. apply S; auto.
  Qed.
  Lemma Rv_mono A g g' s v : keepsx A g g' -> out A (vlocs s) -> Rv g s v -> Rv g' s v.
  Proof.
    intros [L S _] O [<- Hl]. split; [|intros l Hi; specialize (Hl l Hi); lia].
    apply vl_ext. intros; apply S; auto.
  Qed.
  Lemma Rvs_mono A g g' s v : keepsx A g g' -> out A (flat_map vlocs s) -> Rvs g s v -> Rvs g' s v.
  Proof.
    intros [L S _] O [<- Hl]. split; [|intros l Hi; specialize (Hl l Hi); lia].
    apply map_ext_in. intros k Hk. apply vl_ext. intros l Hi.
    assert (In l (flat_map vlocs s)) by (apply in_flat_map; eauto). apply S; auto.
  Qed.
  Definition olocs (o : option ref) : list nat := match o with Some r => [rl r] | None => [] end.
  Lemma Ro_mono A g g' o v : keepsx A g g' -> out A (olocs o) -> Ro g o v -> Ro g' o v.
  Proof. destruct o, v; cbn; auto. apply Rr_mono. Qed.

  (** *** States *)
  Lemma Rs_fm g s v : Rs g s v -> Rf g (h_fm s) (st_fm v).
  Proof. destruct s; intros [<- L]; cbn in *. split; auto. intros; apply L, in_or_app; auto. Qed.
  Lemma Rs_idx g s v : Rs g s v -> h_idx s = st_idx v.
  Proof. now destruct s; intros [<- L]; cbn in *. Qed.
  Lemma Rs_kids g s v : Rs g s v -> Rk g (h_kids s) (st_kids v).
  Proof. destruct s; intros [<- L]; cbn in *. split; auto. intros; apply L, in_or_app; auto. Qed.
  Lemma Rs_mk g fm vfm i ks vks : Rf g fm vfm -> Rk g ks vks -> Rs g (HSt fm i ks) (St vfm i vks).
  Proof. intros [<- L] [<- L']. split; auto. cbn. intros l Hl. apply in_app_or in Hl as [|]; auto. Qed.
  Lemma Rs0 g : Rs g hst0 st0.
  Proof. split; auto. cbn. tauto. Qed.
  Lemma Rk_split g ks vks : Rk g ks vks ->
    Rs g (fst (hkid_split ks)) (fst (kid_split vks)) /\ Rk g (snd (hkid_split ks)) (snd (kid_split vks)).
  Proof.
    destruct ks as [|k ks]; intros [<- L]; cbn in *.
    - split; [apply Rs0|]. split; auto.
    - split; split; auto; intros; apply L, in_or_app; auto.
  Qed.
  Lemma Rk_cons g k v ks vks : Rs g k v -> Rk g ks vks -> Rk g (k :: ks) (v :: vks).
  Proof. intros [<- L] [<- L']. split; auto. cbn. intros l Hl. apply in_app_or in Hl as [|]; auto. Qed.
  Lemma Rk_nil g : Rk g [] [].
  Proof. split; auto. cbn. tauto. Qed.
  Lemma Rf_push g hooks fm vfm y vy : Rf g fm vfm -> Rr g y vy ->
    Rf g (hhook_push hooks fm y) (hook_push hooks vfm vy).
  Proof.
    intros [<- L] [<- Ly]. unfold hhook_push, hook_push. destruct hooks; split; auto.
    - now rewrite map_app.
    - rewrite map_app. cbn. intros l Hl. apply in_app_or in Hl as [|[<-|[]]]; auto.
  Qed.
  Lemma locs_split ks l :
    In l (locs (fst (hkid_split ks))) \/ In l (flat_map locs (snd (hkid_split ks))) <-> In l (flat_map locs ks).
  Proof. destruct ks; cbn; [tauto|]. rewrite in_app_iff. tauto. Qed.
  Lemma locs_push hooks fm y l : In l (map rl (hhook_push hooks fm y)) -> In l (map rl fm) \/ l = rl y.
  Proof.
    unfold hhook_push. destruct hooks; auto. rewrite map_app, in_app_iff. cbn. intuition.
  Qed.
  Lemma locs_eq s l : In l (locs s) <-> In l (map rl (h_fm s)) \/ In l (flat_map locs (h_kids s)).
  Proof. destruct s; cbn. apply in_app_iff. Qed.
  Lemma locs_mk fm i ks l : In l (locs (HSt fm i ks)) <-> In l (map rl fm) \/ In l (flat_map locs ks).
  Proof. apply in_app_iff. Qed.
  Lemma Rs_kid g s v : Rs g s v -> Rs g (h_kid s) (st_kid v).
  Proof.
    destruct s as [fm i [|k ks]]; intros [<- L]; cbn in *; [apply Rs0|]. split; auto.
    intros; apply L, in_or_app. right. apply in_or_app; auto.
  Qed.
  Lemma locs_kid s l : In l (locs (h_kid s)) -> In l (locs s).
  Proof.
    destruct s as [fm i [|k ks]]; cbn; [tauto|]. rewrite !in_app_iff. tauto.
  Qed.
  Lemma Rs_set g s v k vk : Rs g s v -> Rs g k vk -> Rs g (hset_kid s k) (set_kid v vk).
  Proof.
    intros R R'. apply Rs_fm in R as F. apply Rs_idx in R as I. unfold hset_kid, set_kid. rewrite I.
    apply Rs_mk; auto using Rk_cons, Rk_nil.
  Qed.
  Lemma locs_set s k l : In l (locs (hset_kid s k)) -> In l (locs s) \/ In l (locs k).
  Proof.
    unfold hset_kid. rewrite locs_mk. cbn [flat_map]. rewrite app_nil_r. rewrite (locs_eq s). tauto.
  Qed.

  (** *** In-place writes *)
  Lemma set_store_len ss l d : List.length (@set_store K ss l d) = List.length ss.
  Proof. revert l; induction ss; intros [|l]; cbn; auto. Qed.
  Lemma set_store_other ss l d j : j <> l -> nth j (@set_store K ss l d) [] = nth j ss [].
  Proof. revert l j; induction ss; intros [|l] [|j] E; cbn; auto; congruence. Qed.
  Lemma set_store_same ss l d : l < List.length ss -> nth l (@set_store K ss l d) [] = d.
  Proof. revert l; induction ss; intros [|l] E; cbn in *; auto; try lia. apply IHss; lia. Qed.
  Lemma set_at_len (d : list K) i v : List.length (set_at d i v) = List.length d.
  Proof. revert i; induction d; intros [|i]; cbn; auto. Qed.
  Lemma set_at_other (d : list K) i j v : j <> i -> nth j (set_at d i v) n0 = nth j d n0.
  Proof. revert i j; induction d; intros [|i] [|j] E; cbn; auto; congruence. Qed.
  Lemma set_at_same (d : list K) i v : i < List.length d -> nth i (set_at d i v) n0 = v.
  Proof. revert i; induction d; intros [|i] E; cbn in *; auto; try lia. apply IHd; lia. Qed.
  Lemma write_at_len (d : list K) ix vs : List.length (write_at d ix vs) = List.length d.
  Proof.
    revert d vs; induction ix as [|[i|] ix IH]; intros d [|v vs]; cbn; auto. now rewrite IH, set_at_len.
  Qed.
  Lemma write_at_other (d : list K) ix vs j : ~ In (Some j) ix -> nth j (write_at d ix vs) n0 = nth j d n0.
  Proof.
    revert d vs; induction ix as [|o ix IH]; intros d [|v vs] N; cbn; auto. cbn in N.
    rewrite IH by tauto. destruct o as [i|]; auto. apply set_at_other. intros ->. tauto.
  Qed.
  Lemma write_at_read (d : list K) ix vs : NoDup ix -> List.length vs = List.length ix ->
    (forall o, In o ix -> exists i, o = Some i /\ i < List.length d) -> map (look (write_at d ix vs)) ix = vs.
  Proof.
    intros N. revert d vs. induction N as [|o ix Ni N IH]; intros d [|v vs] L P; cbn in *; try lia; auto.
    destruct (P o (or_introl eq_refl)) as (i & -> & Hi). f_equal.
    - cbn. rewrite write_at_other by auto. now apply set_at_same.
    - apply IH; [lia|]. intros o' Ho'. destruct (P o' (or_intror Ho')) as (i' & -> & Hi').
      exists i'. now rewrite set_at_len.
  Qed.

  (** the entries of the tensor object are different positions of its storage, and it is not a parameter *)
  Definition proper g (r : ref) : Prop :=
    par r = false /\ NoDup (data (rix r)) /\
    (forall o, In o (data (rix r)) -> exists i, o = Some i /\ i < List.length (store g (rl r))).
  Lemma proper_mono A g g' r : keepsx A g g' -> out A [rl r] -> rl r < len g -> proper g r -> proper g' r.
  Proof.
    intros [L S _] O Hl (P & N & Q). repeat split; auto. rewrite S; auto. apply O; now left.
  Qed.
  Lemma proper_alloc g t : proper (fst (alloc g t)) (snd (alloc g t)).
  Proof.
    unfold alloc, proper, store, len; cbn. rewrite app_nth2, Nat.sub_diag by lia. cbn. repeat split.
    - apply Injective_map_NoDup; [|apply seq_NoDup]. intros a b E; congruence.
    - intros o Ho. apply in_map_iff in Ho as (i & <- & Hi). apply in_seq in Hi. exists i. split; auto; lia.
  Qed.
  Lemma oeqb_eq a b : oeqb a b = true <-> a = b.
  Proof.
    destruct a, b; cbn; split; intros E; try congruence; [apply Nat.eqb_eq in E; congruence|].
    injection E as ->. apply Nat.eqb_refl.
  Qed.
  Lemma nodupb_ok l : NoDup l -> nodupb l = true.
  Proof.
    induction 1 as [|a l N _ IH]; cbn; auto. rewrite IH, andb_true_r. apply negb_true_iff.
    destruct existsb eqn:E; auto. exfalso. apply existsb_exists in E as (b & Hb & E).
    apply oeqb_eq in E. now subst.
  Qed.

  Lemma write_keeps g r vs : par r = false -> keepsx (Some (rl r)) g (write g r vs).
  Proof.
    intros P. split; unfold len, store, write; cbn.
    - now rewrite set_store_len.
    - intros l _ N. apply set_store_other. congruence.
    - now rewrite P.
  Qed.
  Lemma write_len g r vs : len (write g r vs) = len g.
  Proof. unfold len, write; cbn. apply set_store_len. Qed.
  Lemma write_store g r vs : rl r < len g ->
    store (write g r vs) (rl r) = write_at (store g (rl r)) (data (rix r)) vs.
  Proof. intros L. unfold store, write; cbn. now apply set_store_same. Qed.
  Lemma write_rd g r t : rl r < len g -> proper g r -> shape t = shape (rix r) ->
    List.length (data t) = List.length (data (rix r)) -> rd (write g r (data t)) r = t.
  Proof.
    intros L (P & N & Q) Sh Le. unfold rd, tmap. rewrite write_store by auto.
    rewrite write_at_read; auto. rewrite <- Sh. now destruct t.
  Qed.
  Lemma write_proper g r vs : rl r < len g -> proper g r -> proper (write g r vs) r.
  Proof.
    intros L (P & N & Q). repeat split; auto. rewrite write_store by auto. now rewrite write_at_len.
  Qed.

  Lemma tadd_shape (a b t : T) : tadd_ a b = Ok t -> shape t = shape a /\ wf t.
  Proof.
    unfold tadd_. destruct (tadd a b) as [r|] eqn:E; cbn; [|discriminate].
    unfold shape_eqb. destruct list_eq_dec; [|discriminate]. injection 1 as <-. split; auto.
    unfold tadd, bop in E. destruct (bshape _ _); cbn in E; [|discriminate]. injection E as <-. apply wf_tab.
  Qed.
End StorageBase.
Notation keeps := (keepsx None).
