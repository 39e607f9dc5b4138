(** The loops of sequential.py over the layers, for the storage model: each loop computes what the loop of
    Module.v computes and changes no storage but its own running sum.

    The loops of the different methods have the same shape; they are treated once each, for any call [call]
    made to a layer that has the stated properties. *)
From Coq Require Import String Ascii List Arith ZArith Lia Bool FinFun.
From Verif Require Import Scalar Tensor Conv Abstract Simple LinearLayer ConvLayer PoolLayer Module.
From Verif Require Import TensorLemmas OpLemmas EinsumLemmas Storage StorageBase StorageFwd.
Import ListNotations.
Local Open Scope nat_scope.
Local Open Scope list_scope.

Section StorageLoops.
  Context {K} `{CR : CRing K}.
  Notation T := (tensor K).
  Notation mem := (mem K).
  Implicit Types g : mem.
  Variable cg : ref -> bool.
  Notation hforward := (hforward cg).

  (** *** Where results come from *)
  Lemma outv_arg g a a' w g' L v : w <> Input -> outv g a w g' L v -> outv g a' w g' L v.
  Proof.
    intros Nw [O P]. split.
    - intros l Hl. destruct (O l Hl) as [|[]]; auto. contradiction.
    - destruct v; auto. destruct P as [|[]]; auto. contradiction.
  Qed.
  Lemma outv_more g a w g' L L' v : outv g a w g' L v -> (forall l, In l L' -> In l L \/ l < len g) ->
    outv g a w g' L' v.
  Proof.
    intros [O P] B. split; auto. intros l Hl. destruct (O l Hl) as [[R N]|]; auto. left. split; auto.
    intros I. destruct (B l I); [tauto|lia].
  Qed.
  Lemma outv_shift g g1 a w g' L v : keeps g g1 -> (forall l, In l (vlocs a) -> l < len g) ->
    outv g1 a w g' L v -> outv g a w g' L v.
  Proof.
    intros Kp B [O P]. pose proof (k_len _ _ _ Kp). split.
    - intros l Hl. destruct (O l Hl) as [[R N]|]; auto. left. split; auto. lia.
    - destruct v as [|q|]; auto. destruct P as [|[-> [->|(a0 & -> & P)]]]; auto.
      right. split; auto. right. exists a0. split; auto. intros Pa. apply P.
      eapply proper_mono; eauto using out_none. apply B. now left.
  Qed.
  Lemma outv_ext A g a w g1 g2 L L' v : keepsx A g1 g2 -> (forall l, In l (vlocs v) -> l < len g1) ->
    out A (vlocs v) -> (forall l, In l L' -> In l L \/ len g1 <= l) -> outv g a w g1 L v -> outv g a w g2 L' v.
  Proof.
    intros Kp B Oa N [O P]. pose proof (k_len _ _ _ Kp). split.
    - intros l Hl. destruct (O l Hl) as [[R Nl]|]; auto. left. split; [lia|].
      intros I. destruct (N l I); [tauto|]. specialize (B l Hl). lia.
    - destruct v as [|q|]; auto. assert (Hq : rl q < len g1) by (apply B; now left).
      destruct P as [|[-> [->|(a0 & -> & P)]]]; auto.
      + left. eapply proper_mono; eauto.
      + right. split; auto. right. exists a0. split; auto. intros Pa. eapply proper_mono; eauto.
  Qed.
  Lemma outv_trans g a g1 L1 v1 g2 L2 v2 L : outv g a Input g1 L1 v1 -> outv g1 v1 Input g2 L2 v2 ->
    v1 <> HN -> keeps g g1 -> keeps g1 g2 ->
    (forall l, In l L -> (len g1 <= l -> In l L2) /\ (l < len g1 -> len g <= l -> In l L1)) ->
    (forall l, In l (vlocs v1) -> l < len g1) -> outv g a Input g2 L v2.
  Proof.
    intros [O1 P1] [O2 P2] N K1 K2 HL B. pose proof (k_len _ _ _ K1). pose proof (k_len _ _ _ K2). split.
    - intros l Hl. destruct (O2 l Hl) as [[R Nl]|[_ Hl1]].
      + left. split; [lia|]. intros I. apply Nl. apply (HL l I). lia.
      + destruct (O1 l Hl1) as [[R Nl]|]; auto. left. split; [lia|]. intros I. apply Nl, (HL l I); lia.
    - destruct v2 as [|q|]; auto. destruct P2 as [|[_ [->|(a0 & -> & P)]]]; auto; [contradiction|].
      destruct P1 as [|[_ [->|(a1 & -> & P1)]]]; auto.
      right. split; auto. right. exists a1. auto.
  Qed.
  Lemma outv_same g a w L v : w = Input -> v = a -> outv g a w g L v.
  Proof.
    intros -> ->. split; [auto|]. destruct a as [|q|]; auto. right. split; auto. right. exists q. auto.
  Qed.

  (** *** One call made to a layer *)
  Section Val.
    Context {V VV : Type} (RV : mem -> V -> VV -> Prop) (tv : V -> hvalue).
    Hypothesis RV_mono : forall A g g' v vv, keepsx A g g' -> out A (vlocs (tv v)) -> RV g v vv -> RV g' v vv.
    Hypothesis RV_bound : forall g v vv, RV g v vv -> forall l, In l (vlocs (tv v)) -> l < len g.

    (** the call made in g, with state s and input x, and a result that may be the argument a *)
    Definition Call g (s : hst) (x : ref) (a : hvalue) (w : wrt) g' (s' : hst) (r : res V)
      (p : st K * res VV) : Prop :=
      keeps g g' /\ Rs g' s' (fst p) /\ RR (RV g') r (snd p) /\
      grows g g' (locs s ++ [rl x]) (locs s') /\
      (forall q, r = Ok q -> (w = Input -> tv q <> HN) /\ outv g a w g' (locs s') (tv q)).

    Definition call_t := module K -> list (module K) -> nat -> mem -> hst -> ref -> ref -> V -> mem * hst * res V.
    Definition vcall_t := module K -> list (module K) -> nat -> st K -> T -> T -> VV -> st K * res VV.
    Definition call_in (call : call_t) (vcall : vcall_t) (m : module K) : Prop :=
      forall ms k g s vs x vx y vy v vv g' s' r,
        Rs g s vs -> Rr g x vx -> Rr g y vy -> RV g v vv -> tv v <> HN ->
        call m ms k g s x y v = (g', s', r) -> Call g s x (tv v) Input g' s' r (vcall m ms k vs vx vy vv).

    (** *** From the last layer to the first, with respect to the input *)
    Variable call : call_t.
    Variable vcall : vcall_t.
    Fixpoint bin (hooks : bool) (fm : list ref) (ms : list (module K)) g (ks : list hst) (k : nat) (v : V)
      : mem * list hst * res V :=
      match ms with
      | [] => (g, [], Ok v)
      | m :: ms =>
          let '(s, ks) := hkid_split ks in
          let '(g, ks, r) := bin hooks fm ms g ks (S k) v in
          match (v <- r ;; p <- hfmap2 hooks fm k ;; Ok (v, p)) with
          | Raise e => (g, s :: ks, Raise e)
          | Ok (v, (x, y)) => let '(g, s, r) := call m ms k g s x y v in (g, s :: ks, r)
          end
      end.
    Fixpoint vbin (hooks : bool) (fm : list T) (ms : list (module K)) (ks : list (st K)) (k : nat) (v : VV)
      : list (st K) * res VV :=
      match ms with
      | [] => ([], Ok v)
      | m :: ms =>
          let '(s, ks) := kid_split ks in
          let '(ks, r) := vbin hooks fm ms ks (S k) v in
          match (v <- r ;; p <- fmap2 hooks fm k ;; Ok (v, p)) with
          | Raise e => (s :: ks, Raise e)
          | Ok (v, (x, y)) => let '(s, r) := vcall m ms k s x y v in (s :: ks, r)
          end
      end.

    Lemma bin_ok hooks fm vfm ms : Forall (call_in call vcall) ms ->
      forall g ks vks k v vv g' ks' r, Rk g ks vks -> Rf g fm vfm -> RV g v vv -> tv v <> HN ->
      bin hooks fm ms g ks k v = (g', ks', r) ->
      keeps g g' /\ Rk g' ks' (fst (vbin hooks vfm ms vks k vv)) /\ RR (RV g') r (snd (vbin hooks vfm ms vks k vv)) /\
      grows g g' (flat_map locs ks ++ map rl fm) (flat_map locs ks') /\
      (forall q, r = Ok q -> tv q <> HN /\ outv g (tv v) Input g' (flat_map locs ks' ++ map rl fm) (tv q)).
    Proof.
      induction 1 as [|m ms Hm Hms IH]; intros g ks vks k v vv g' ks' r Rks Rfm Rv Nv; cbn [bin vbin].
      - injection 1 as <- <- <-. split; [apply keeps_refl|]. split; [apply Rk_nil|]. split; [exact Rv|].
        split; [intros l []|]. intros q [= <-]. split; auto. now apply outv_same.
      - pose proof (locs_split ks) as LS.
        destruct (Rk_split _ _ _ Rks) as [Rk0 Rks0].
        destruct (hkid_split ks) as [s ks0]. destruct (kid_split vks) as [vs vks0]. cbn [fst snd] in *.
        destruct (bin hooks fm ms g ks0 (S k) v) as [[g1 ks1] r1] eqn:E1.
        destruct (IH _ _ _ _ _ _ _ _ _ Rks0 Rfm Rv Nv E1) as (K1 & Rk1 & Rr1 & G1 & O1).
        destruct (vbin hooks vfm ms vks0 (S k) vv) as [vks1 vr1]. cbn [fst snd] in *.
        pose proof (k_len _ _ _ K1) as Le1.
        assert (G1' : grows g g1 (flat_map locs ks ++ map rl fm) (flat_map locs (s :: ks1))).
        { intros l Hl. cbn [flat_map] in Hl. rewrite in_app_iff, <- LS. apply in_app_or in Hl as [Hl|Hl]; [tauto|].
          apply G1 in Hl as [Hl|]; [|auto]. rewrite in_app_iff in Hl. tauto. }
        destruct r1 as [v1|e], vr1 as [vv1|e']; cbn in Rr1; try tauto; cbn [bind].
        + pose proof (hfmap2_ok g1 hooks fm vfm k (keeps_Rf _ _ _ _ K1 Rfm)) as F2.
          destruct (hfmap2 hooks fm k) as [[x y]|e], (fmap2 hooks vfm k) as [[vx vy]|e']; cbn in F2; try tauto;
            cbn [bind].
          * destruct F2 as (Rx & Ry & Ix & Iy). specialize (O1 v1 eq_refl) as [N1v O1].
            destruct (call m ms k g1 s x y v1) as [[g2 s2] r2] eqn:E2. injection 1 as <- <- <-.
            destruct (Hm _ _ _ _ _ _ _ _ _ _ _ _ _ _ (keeps_Rs _ _ _ _ K1 Rk0) Rx Ry Rr1 N1v E2)
              as (K2 & Rs2 & Rr2 & G2 & O2).
            destruct (vcall m ms k vs vx vy vv1) as [vs2 vr2]. cbn [fst snd] in *.
            pose proof (k_len _ _ _ K2) as Le2.
            split; [eapply keeps_trans; eauto|]. split; [apply Rk_cons; auto; eapply keeps_Rk; eauto|].
            split; [auto|]. split.
            -- intros l Hl. cbn [flat_map] in Hl. rewrite in_app_iff in Hl. destruct Hl as [Hl|Hl].
               ++ apply G2 in Hl as [Hl|]; [|right; lia]. rewrite in_app_iff in Hl.
                  left. rewrite in_app_iff, <- LS. destruct Hl as [|[<-|[]]]; tauto.
               ++ assert (Hl' : In l (flat_map locs (s :: ks1))) by (cbn; rewrite in_app_iff; auto).
                  apply G1' in Hl' as [|]; [auto|right; lia].
            -- intros q Hq. destruct (O2 q Hq) as [N2 O2']. split; [auto|].
               eapply outv_trans; try exact O1; try exact O2'; auto; try exact K1; try exact K2.
               ++ intros l Hl. cbn [flat_map] in Hl. rewrite !in_app_iff in Hl. rewrite in_app_iff.
                  assert (B1 : In l (flat_map locs ks1) -> l < len g1) by apply Rk1.
                  assert (B2 : In l (map rl fm) -> l < len g) by apply Rfm.
                  assert (B3 : In l (locs s) -> l < len g) by apply Rk0.
                  split; [intros; destruct Hl as [[|]|]; auto; exfalso; intuition lia|].
                  intros Hlt Hge. destruct Hl as [[Hl|]|]; auto.
                  apply G2 in Hl as [Hl|]; [|lia]. apply in_app_or in Hl as [Hl|[<-|[]]]; auto.
                  specialize (B3 Hl). lia.
               ++ intros l Hl. eapply RV_bound; eauto.
          * injection 1 as <- <- <-. split; [auto|]. split; [apply Rk_cons; auto; eapply keeps_Rs; eauto|].
            split; [exact F2|]. split; [exact G1'|discriminate].
        + injection 1 as <- <- <-. split; [auto|]. split; [apply Rk_cons; auto; eapply keeps_Rs; eauto|].
          split; [exact Rr1|]. split; [exact G1'|discriminate].
    Qed.

    (** *** From the last layer to the first, collecting the products with respect to the weights *)
    Context {W WW : Type} (RW : mem -> W -> WW -> Prop) (tw : W -> hvalue).
    Hypothesis RW_mono : forall A g g' v vv, keepsx A g g' -> out A (vlocs (tw v)) -> RW g v vv -> RW g' v vv.
    Hypothesis RW_bound : forall g v vv, RW g v vv -> forall l, In l (vlocs (tw v)) -> l < len g.
    Definition RWo g (o : option W) (v : option WW) : Prop :=
      match o, v with Some a, Some b => RW g a b | None, None => True | _, _ => False end.
    Definition two (o : option W) : hvalue := match o with Some a => tw a | None => HN end.
    Definition callw_t :=
      module K -> list (module K) -> nat -> mem -> hst -> ref -> ref -> V -> mem * hst * res (option W).
    Definition vcallw_t := module K -> list (module K) -> nat -> st K -> T -> T -> VV -> st K * res (option WW).
    (** the storages of the products are new, and not in the state *)
    Definition call_w (callw : callw_t) (vcallw : vcallw_t) (m : module K) : Prop :=
      forall ms k g s vs x vx y vy v vv g' s' r,
        Rs g s vs -> Rr g x vx -> Rr g y vy -> RV g v vv -> tv v <> HN ->
        callw m ms k g s x y v = (g', s', r) ->
        keeps g g' /\ Rs g' s' (fst (vcallw m ms k vs vx vy vv)) /\
        RR (RWo g') r (snd (vcallw m ms k vs vx vy vv)) /\ grows g g' (locs s ++ [rl x]) (locs s') /\
        (forall q, r = Ok q -> forall l, In l (vlocs (two q)) -> len g <= l < len g' /\ ~ In l (locs s')).
    Variable callw : callw_t.
    Variable vcallw : vcallw_t.
    Fixpoint bw (hooks : bool) (fm : list ref) (ms : list (module K)) g (ks : list hst) (k : nat) (v : V)
      : mem * list hst * res (list W * V) :=
      match ms with
      | [] => (g, [], Ok ([], v))
      | m :: ms =>
          let '(s, ks) := hkid_split ks in
          let '(g, ks, r) := bw hooks fm ms g ks (S k) v in
          match (a <- r ;; p <- hfmap2 hooks fm k ;; Ok (a, p)) with
          | Raise e => (g, s :: ks, Raise e)
          | Ok (vs, v, (x, y)) =>
              let '(g, s, r) := callw m ms k g s x y v in
              match r with
              | Raise e => (g, s :: ks, Raise e)
              | Ok vk =>
                  let vs := match vk with Some t => t :: vs | None => vs end in
                  if Nat.eqb k 0 then (g, s :: ks, Ok (vs, v))
                  else let '(g, s, r) := call m ms k g s x y v in
                       (g, s :: ks, v <- r ;; Ok (vs, v))
              end
          end
      end.
    Fixpoint vbw (hooks : bool) (fm : list T) (ms : list (module K)) (ks : list (st K)) (k : nat) (v : VV)
      : list (st K) * res (list WW * VV) :=
      match ms with
      | [] => ([], Ok ([], v))
      | m :: ms =>
          let '(s, ks) := kid_split ks in
          let '(ks, r) := vbw hooks fm ms ks (S k) v in
          match (a <- r ;; p <- fmap2 hooks fm k ;; Ok (a, p)) with
          | Raise e => (s :: ks, Raise e)
          | Ok (vs, v, (x, y)) =>
              let '(s, r) := vcallw m ms k s x y v in
              match r with
              | Raise e => (s :: ks, Raise e)
              | Ok vk =>
                  let vs := match vk with Some t => t :: vs | None => vs end in
                  if Nat.eqb k 0 then (s :: ks, Ok (vs, v))
                  else let '(s, r) := vcall m ms k s x y v in
                       (s :: ks, v <- r ;; Ok (vs, v))
              end
          end
      end.
    Definition Rpair g (p : list W * V) (q : list WW * VV) : Prop :=
      Forall2 (RW g) (fst p) (fst q) /\ RV g (snd p) (snd q).
    Definition wlocs (l : list W) : list nat := flat_map (fun a => vlocs (tw a)) l.

    Lemma RWs_mono A g g' l vl : keepsx A g g' -> out A (wlocs l) -> Forall2 (RW g) l vl -> Forall2 (RW g') l vl.
    Proof.
      intros Kp O. induction 1 as [|a b l l' R _ IH]; constructor.
      - eapply RW_mono; eauto. intros q Hq. apply O. cbn. apply in_or_app; auto.
      - apply IH. intros q Hq. apply O. cbn. apply in_or_app; auto.
    Qed.
    Lemma RWs_bound g l vl : Forall2 (RW g) l vl -> forall q, In q (wlocs l) -> q < len g.
    Proof.
      induction 1 as [|a b l l' R _ IH]; cbn; [tauto|]. intros q Hq. apply in_app_or in Hq as [|]; auto.
      eapply RW_bound; eauto.
    Qed.

    Lemma bw_ok hooks fm vfm ms : Forall (fun m => call_in call vcall m /\ call_w callw vcallw m) ms ->
      forall g ks vks k v vv g' ks' r, Rk g ks vks -> Rf g fm vfm -> RV g v vv -> tv v <> HN ->
      bw hooks fm ms g ks k v = (g', ks', r) ->
      keeps g g' /\ Rk g' ks' (fst (vbw hooks vfm ms vks k vv)) /\
      RR (Rpair g') r (snd (vbw hooks vfm ms vks k vv)) /\
      grows g g' (flat_map locs ks ++ map rl fm) (flat_map locs ks') /\
      (forall q, r = Ok q -> tv (snd q) <> HN /\
         (forall l, In l (wlocs (fst q)) -> len g <= l < len g' /\ ~ In l (flat_map locs ks' ++ map rl fm))).
    Proof.
      induction 1 as [|m ms [Hi Hw] Hms IH]; intros g ks vks k v vv g' ks' r Rks Rfm Rv Nv; cbn [bw vbw].
      - injection 1 as <- <- <-. split; [apply keeps_refl|]. split; [apply Rk_nil|].
        split; [split; [constructor|exact Rv]|].
        split; [intros l []|]. intros q [= <-]. split; auto. cbn. tauto.
      - pose proof (locs_split ks) as LS.
        destruct (Rk_split _ _ _ Rks) as [Rk0 Rks0].
        destruct (hkid_split ks) as [s ks0]. destruct (kid_split vks) as [vs vks0]. cbn [fst snd] in *.
        destruct (bw hooks fm ms g ks0 (S k) v) as [[g1 ks1] r1] eqn:E1.
        destruct (IH _ _ _ _ _ _ _ _ _ Rks0 Rfm Rv Nv E1) as (K1 & Rk1 & Rr1 & G1 & O1).
        destruct (vbw hooks vfm ms vks0 (S k) vv) as [vks1 vr1]. cbn [fst snd] in *.
        pose proof (k_len _ _ _ K1) as Le1.
        assert (G1' : grows g g1 (flat_map locs ks ++ map rl fm) (flat_map locs (s :: ks1))).
        { intros l Hl. cbn [flat_map] in Hl. rewrite in_app_iff, <- LS. apply in_app_or in Hl as [Hl|Hl]; [tauto|].
          apply G1 in Hl as [Hl|]; [|auto]. rewrite in_app_iff in Hl. tauto. }
        assert (B2 : forall l, In l (map rl fm) -> l < len g) by apply Rfm.
        assert (B3 : forall l, In l (locs s) -> l < len g) by apply Rk0.
        assert (B1 : forall l, In l (flat_map locs ks1) -> l < len g1) by apply Rk1.
        destruct r1 as [[ws1 v1]|e], vr1 as [[vws1 vv1]|e']; cbn in Rr1; try tauto; cbn [bind].
        + destruct Rr1 as [Rws1 Rv1]. cbn [fst snd] in *.
          specialize (O1 _ eq_refl) as [N1v O1]. cbn [fst snd] in *.
          pose proof (hfmap2_ok g1 hooks fm vfm k (keeps_Rf _ _ _ _ K1 Rfm)) as F2.
          destruct (hfmap2 hooks fm k) as [[x y]|e], (fmap2 hooks vfm k) as [[vx vy]|e']; cbn in F2; try tauto;
            cbn [bind].
          * destruct F2 as (Rx & Ry & Ix & Iy).
            destruct (callw m ms k g1 s x y v1) as [[g2 s2] r2] eqn:E2.
            destruct (Hw _ _ _ _ _ _ _ _ _ _ _ _ _ _ (keeps_Rs _ _ _ _ K1 Rk0) Rx Ry Rv1 N1v E2)
              as (K2 & Rs2 & Rr2 & G2 & O2).
            destruct (vcallw m ms k vs vx vy vv1) as [vs2 vr2]. cbn [fst snd] in *.
            pose proof (k_len _ _ _ K2) as Le2.
            assert (G2' : grows g g2 (flat_map locs ks ++ map rl fm) (flat_map locs (s2 :: ks1))).
            { intros l Hl. cbn [flat_map] in Hl. rewrite in_app_iff in Hl. destruct Hl as [Hl|Hl].
              - apply G2 in Hl as [Hl|]; [|right; lia]. rewrite in_app_iff in Hl.
                left. rewrite in_app_iff, <- LS. destruct Hl as [|[<-|[]]]; tauto.
              - assert (Hl' : In l (flat_map locs (s :: ks1))) by (cbn; rewrite in_app_iff; auto).
                apply G1' in Hl' as [|]; [auto|right; lia]. }
            (* the storages collected so far are not in the new state *)
            assert (Ow : forall l, In l (wlocs ws1) -> len g <= l < len g1 /\
                           ~ In l (flat_map locs (s2 :: ks1) ++ map rl fm)).
            { intros l Hl. destruct (O1 l Hl) as [R N]. split; auto. rewrite in_app_iff in *. cbn [flat_map].
              rewrite in_app_iff. intros [[I|I]|I]; try tauto.
              apply G2 in I as [I|I]; [|lia]. apply in_app_or in I as [I|[<-|[]]]; [|tauto].
              specialize (B3 _ I). lia. }
            destruct r2 as [vk|e], vr2 as [vvk|e']; cbn in Rr2; try tauto.
            -- specialize (O2 _ eq_refl).
               assert (Rws2 : Forall2 (RW g2) (match vk with Some t => t :: ws1 | None => ws1 end)
                                              (match vvk with Some t => t :: vws1 | None => vws1 end)).
               { assert (Forall2 (RW g2) ws1 vws1) by (eapply RWs_mono; eauto using out_none).
                 destruct vk, vvk; cbn in Rr2; try tauto; auto. }
               assert (Ow2 : forall l, In l (wlocs (match vk with Some t => t :: ws1 | None => ws1 end)) ->
                               len g <= l < len g2 /\ ~ In l (flat_map locs (s2 :: ks1) ++ map rl fm)).
               { assert (X : forall l, In l (wlocs ws1) ->
                               len g <= l < len g2 /\ ~ In l (flat_map locs (s2 :: ks1) ++ map rl fm)).
                 { intros l Hl. destruct (Ow l Hl). split; auto. lia. }
                 destruct vk as [t|]; auto. intros l Hl. cbn in Hl. apply in_app_or in Hl as [Hl|Hl]; auto.
                 destruct (O2 l Hl) as [R N]. split; [lia|]. cbn [flat_map]. rewrite !in_app_iff.
                 intros [[I|I]|I]; [tauto| |]; [apply B1 in I|apply B2 in I]; lia. }
               assert (Rv2 : RV g2 v1 vv1) by (eapply RV_mono; eauto using out_none).
               destruct (Nat.eqb k 0).
               ++ injection 1 as <- <- <-. cbn [fst snd]. split; [eapply keeps_trans; eauto|].
                  split; [apply Rk_cons; auto; eapply keeps_Rk; eauto|]. split; [split; auto|].
                  split; [exact G2'|]. intros q [= <-]. cbn [fst snd]. auto.
               ++ destruct (call m ms k g2 s2 x y v1) as [[g3 s3] r3] eqn:E3. injection 1 as <- <- <-.
                  destruct (Hi _ _ _ _ _ _ _ _ _ _ _ _ _ _ Rs2 (keeps_Rr _ _ _ _ K2 Rx)
                              (keeps_Rr _ _ _ _ K2 Ry) Rv2 N1v E3) as (K3 & Rs3 & Rr3 & G3 & O3).
                  destruct (vcall m ms k vs2 vx vy vv1) as [vs3 vr3]. cbn [fst snd] in *.
                  pose proof (k_len _ _ _ K3) as Le3.
                  assert (B4 : forall l, In l (locs s2) -> l < len g2) by apply Rs2.
                  split; [eapply keeps_trans; [eapply keeps_trans; eauto|eauto]|].
                  split; [apply Rk_cons; auto; eapply keeps_Rk; [|eapply keeps_Rk]; eauto|].
                  split; [|split].
                  ** destruct r3 as [v3|e], vr3 as [vv3|e']; cbn in *; try tauto. split; [|auto]. cbn [fst snd].
                     eapply RWs_mono; eauto using out_none.
                  ** intros l Hl. cbn [flat_map] in Hl. rewrite in_app_iff in Hl. destruct Hl as [Hl|Hl].
                     --- apply G3 in Hl as [Hl|]; [|right; lia]. rewrite in_app_iff in Hl.
                         destruct Hl as [Hl|[<-|[]]].
                         +++ assert (Hl' : In l (flat_map locs (s2 :: ks1))) by (cbn; rewrite in_app_iff; auto).
                             apply G2' in Hl' as [|]; [auto|right; lia].
                         +++ left. rewrite in_app_iff. auto.
                     --- assert (Hl' : In l (flat_map locs (s2 :: ks1))) by (cbn; rewrite in_app_iff; auto).
                         apply G2' in Hl' as [|]; [auto|right; lia].
                  ** intros q Hq. destruct r3 as [v3|e]; cbn in Hq; [|discriminate]. injection Hq as <-.
                     cbn [fst snd]. destruct (O3 v3 eq_refl) as [N3 _]. split; [auto|].
                     intros l Hl. destruct (Ow2 l Hl) as [R N]. split; [lia|].
                     cbn [flat_map] in *. rewrite !in_app_iff in *. intros [[I|I]|I]; try tauto.
                     apply G3 in I as [I|I]; [|lia]. apply in_app_or in I as [I|[<-|[]]]; tauto.
            -- injection 1 as <- <- <-. split; [eapply keeps_trans; eauto|].
               split; [apply Rk_cons; auto; eapply keeps_Rk; eauto|].
               split; [exact Rr2|]. split; [exact G2'|discriminate].
          * injection 1 as <- <- <-. split; [auto|]. split; [apply Rk_cons; auto; eapply keeps_Rs; eauto|].
            split; [exact F2|]. split; [exact G1'|discriminate].
        + injection 1 as <- <- <-. split; [auto|]. split; [apply Rk_cons; auto; eapply keeps_Rs; eauto|].
          split; [exact Rr1|]. split; [exact G1'|discriminate].
    Qed.

    (** *** From the first layer to the last, with respect to the input; the hooks run as the layers do *)
    Fixpoint fin (hooks : bool) (ms : list (module K)) g (ks : list hst) (x : ref) (fm : list ref) (v : V)
      : mem * list hst * list ref * res V :=
      match ms with
      | [] => (g, [], fm, Ok v)
      | m :: ms =>
          let '(k, ks) := hkid_split ks in
          let '(g, k, r) := hforward m g k x in
          match r with
          | Raise e => (g, k :: ks, fm, Raise e)
          | Ok y =>
              let fm := hhook_push hooks fm y in
              let '(g, k, r) := call m ms 0 g k x y v in
              match r with
              | Raise e => (g, k :: ks, fm, Raise e)
              | Ok v => let '(g, ks, fm, r) := fin hooks ms g ks y fm v in (g, k :: ks, fm, r)
              end
          end
      end.
    Fixpoint vfin (hooks : bool) (ms : list (module K)) (ks : list (st K)) (x : T) (fm : list T) (v : VV)
      : list (st K) * list T * res VV :=
      match ms with
      | [] => ([], fm, Ok v)
      | m :: ms =>
          let '(k, ks) := kid_split ks in
          let '(k, r) := forward m k x in
          match r with
          | Raise e => (k :: ks, fm, Raise e)
          | Ok y =>
              let fm := hook_push hooks fm y in
              let '(k, r) := vcall m ms 0 k x y v in
              match r with
              | Raise e => (k :: ks, fm, Raise e)
              | Ok v => let '(ks, fm, r) := vfin hooks ms ks y fm v in (k :: ks, fm, r)
              end
          end
      end.

    Lemma fin_ok hooks ms : Forall (call_in call vcall) ms ->
      forall g ks vks x vx fm vfm v vv g' ks' fm' r,
      Rk g ks vks -> Rr g x vx -> Rf g fm vfm -> RV g v vv -> tv v <> HN ->
      fin hooks ms g ks x fm v = (g', ks', fm', r) ->
      keeps g g' /\ Rk g' ks' (fst (fst (vfin hooks ms vks vx vfm vv))) /\
      Rf g' fm' (snd (fst (vfin hooks ms vks vx vfm vv))) /\ RR (RV g') r (snd (vfin hooks ms vks vx vfm vv)) /\
      grows g g' (flat_map locs ks ++ map rl fm ++ [rl x]) (flat_map locs ks' ++ map rl fm') /\
      (forall q, r = Ok q -> tv q <> HN /\
         outv g (tv v) Input g' (flat_map locs ks' ++ map rl fm') (tv q)).
    Proof.
      induction 1 as [|m ms Hm Hms IH]; intros g ks vks x vx fm vfm v vv g' ks' fm' r Rks Rx Rfm Rv Nv;
        cbn [fin vfin].
      - injection 1 as <- <- <- <-. split; [apply keeps_refl|]. split; [apply Rk_nil|]. split; [auto|].
        split; [exact Rv|]. split.
        + intros l Hl. cbn in Hl. left. rewrite !in_app_iff. auto.
        + intros q [= <-]. split; auto. now apply outv_same.
      - pose proof (locs_split ks) as LS.
        destruct (Rk_split _ _ _ Rks) as [Rk0 Rks0].
        destruct (hkid_split ks) as [k ks0]. destruct (kid_split vks) as [vk vks0]. cbn [fst snd] in *.
        destruct (hforward m g k x) as [[g1 k1] r1] eqn:E1.
        destruct (hforward_ok cg m _ _ _ _ _ _ _ _ Rk0 Rx E1) as (K1 & Rk1 & Rr1 & G1 & Y1).
        destruct (forward m vk vx) as [vk1 vr1]. cbn [fst snd] in *.
        pose proof (k_len _ _ _ K1) as Le1.
        assert (G1' : grows g g1 (flat_map locs ks ++ map rl fm ++ [rl x]) (flat_map locs (k1 :: ks0) ++ map rl fm)).
        { intros l Hl. cbn [flat_map] in Hl. rewrite !in_app_iff in Hl. rewrite !in_app_iff, <- LS.
          destruct Hl as [[Hl|]|]; try tauto. apply G1 in Hl as [Hl|]; [|auto].
          rewrite in_app_iff in Hl. cbn in *. tauto. }
        destruct r1 as [y|e], vr1 as [vy|e']; cbn in Rr1; try tauto.
        + specialize (Y1 y eq_refl).
          destruct (call m ms 0 g1 k1 x y v) as [[g2 k2] r2] eqn:E2.
          destruct (Hm _ _ _ _ _ _ _ _ _ _ _ _ _ _ Rk1 (keeps_Rr _ _ _ _ K1 Rx) Rr1
                      (RV_mono _ _ _ _ _ K1 (out_none _) Rv) Nv E2) as (K2 & Rk2 & Rr2 & G2 & O2).
          destruct (vcall m ms 0 vk1 vx vy vv) as [vk2 vr2]. cbn [fst snd] in *.
          pose proof (k_len _ _ _ K2) as Le2.
          pose proof (keeps_trans _ _ _ _ K1 K2) as K12.
          assert (Bk : forall l, In l (locs k1) -> l < len g1) by apply Rk1.
          assert (Bk2 : forall l, In l (locs k2) -> l < len g2) by apply Rk2.
          assert (B0 : forall l, In l (locs k) -> l < len g) by apply Rk0.
          assert (Bs : forall l, In l (flat_map locs ks0) -> l < len g) by apply Rks0.
          assert (Bf : forall l, In l (map rl fm) -> l < len g) by apply Rfm.
          assert (Bx : rl x < len g) by apply Rx. assert (By : rl y < len g1) by apply Rr1.
          assert (Gk2 : grows g g2 (locs k ++ [rl x]) (locs k2)).
          { intros l Hl. apply G2 in Hl as [Hl|]; [|right; lia]. apply in_app_or in Hl as [Hl|Hl];
              [|left; apply in_or_app; auto]. apply G1 in Hl as [|]; [auto|right; lia]. }
          assert (G2' : grows g g2 (flat_map locs ks ++ map rl fm ++ [rl x])
                          (flat_map locs (k2 :: ks0) ++ map rl (hhook_push hooks fm y))).
          { intros l Hl. cbn [flat_map] in Hl. rewrite !in_app_iff in Hl. rewrite !in_app_iff, <- LS.
            destruct Hl as [[Hl|]|Hl]; try tauto.
            - apply Gk2 in Hl as [Hl|]; [|right; lia]. rewrite in_app_iff in Hl. cbn in *. tauto.
            - apply locs_push in Hl as [| ->]; [tauto|]. destruct Y1 as [->|]; [left; cbn; tauto|right; lia]. }
          assert (Rf1 : Rf g2 (hhook_push hooks fm y) (hook_push hooks vfm vy)).
          { apply Rf_push; [exact (keeps_Rf _ _ _ _ K12 Rfm)|exact (keeps_Rr _ _ _ _ K2 Rr1)]. }
          destruct r2 as [v2|e], vr2 as [vv2|e']; cbn in Rr2; try tauto.
          * destruct (O2 v2 eq_refl) as [N2 O2']. specialize (N2 eq_refl).
            destruct (fin hooks ms g2 ks0 y (hhook_push hooks fm y) v2) as [[[g3 ks3] fm3] r3] eqn:E3.
            injection 1 as <- <- <- <-.
            eapply IH in E3 as (K3 & Rk3 & Rf3 & Rr3 & G3 & O3);
              [|exact (keeps_Rk _ _ _ _ K12 Rks0)|exact (keeps_Rr _ _ _ _ K2 Rr1)|exact Rf1|exact Rr2|exact N2].
            destruct (vfin hooks ms vks0 vy (hook_push hooks vfm vy) vv2) as [[vks3 vfm3] vr3].
            cbn [fst snd] in *. pose proof (k_len _ _ _ K3) as Le3.
            split; [eapply keeps_trans; eauto|]. split; [apply Rk_cons; auto; eapply keeps_Rs; eauto|].
            split; [auto|]. split; [auto|]. split.
            -- intros l Hl. cbn [flat_map] in Hl. rewrite <- app_assoc, in_app_iff in Hl.
               destruct Hl as [Hl|Hl].
               ++ apply Gk2 in Hl as [Hl|]; [|right; lia]. rewrite !in_app_iff, <- LS.
                  rewrite in_app_iff in Hl. cbn in *. tauto.
               ++ apply G3 in Hl as [Hl|]; [|right; lia]. rewrite !in_app_iff in Hl. rewrite !in_app_iff, <- LS.
                  destruct Hl as [|[Hl|[<-|[]]]]; [tauto| |].
                  ** apply locs_push in Hl as [| ->]; [tauto|]. destruct Y1 as [->|]; [left; cbn; tauto|right; lia].
                  ** destruct Y1 as [->|]; [left; cbn; tauto|right; lia].
            -- intros q Hq. destruct (O3 q Hq) as [N3 O3']. split; [auto|].
               assert (O2'' : outv g (tv v) Input g2 (locs k2 ++ [rl y]) (tv v2)).
               { apply outv_shift with (g1 := g1); auto; [eapply RV_bound; eauto|].
                 apply outv_more with (L := locs k2); auto. intros l Hl. apply in_app_or in Hl as [|[<-|[]]]; auto. }
               eapply outv_trans; try exact O2''; try exact O3'; auto.
               ++ intros l Hl. cbn [flat_map] in Hl. rewrite <- app_assoc, in_app_iff in Hl. split.
                  ** intros Hge. destruct Hl as [Hl|]; auto. apply Bk2 in Hl. lia.
                  ** intros Hlt Hge. rewrite in_app_iff. destruct Hl as [Hl|Hl]; auto.
                     apply G3 in Hl as [Hl|]; [|lia]. rewrite !in_app_iff in Hl.
                     destruct Hl as [Hl|[Hl|Hl]]; [apply Bs in Hl; lia| |auto].
                     apply locs_push in Hl as [Hl| ->]; [apply Bf in Hl; lia|cbn; auto].
               ++ intros l Hl. eapply RV_bound; eauto.
          * injection 1 as <- <- <- <-. cbn [fst snd]. split; [auto|].
            split; [apply Rk_cons; auto; eapply keeps_Rk; eauto|]. split; [exact Rf1|]. split; [exact Rr2|].
            split; [exact G2'|discriminate].
        + injection 1 as <- <- <- <-. cbn [fst snd]. split; [auto|].
          split; [apply Rk_cons; auto; eapply keeps_Rk; eauto|]. split; [eapply keeps_Rf; eauto|].
          split; [exact Rr1|]. split; [exact G1'|discriminate].
    Qed.
  End Val.
End StorageLoops.
