(** jmp and jmjTp of the object model when sharing does no harm: the results are those of the tree model
    and the heap stays usable. *)
From Coq Require Import String Ascii List Arith ZArith Lia Bool.
From Verif Require Import Scalar Tensor Conv Abstract Simple LinearLayer ConvLayer PoolLayer Module Domain Objects ObjectsSpec ObjBase ObjBack ObjFwd.
Import ListNotations.
Local Open Scope nat_scope.
Local Open Scope list_scope.

Section ObjPush.
  Context {K} `{NK : Num K}.
  Notation T := (tensor K).
  Variable H : nat -> list nat.

  Definition runs {R} (m : node K) (g : heap K) (a : heap K * res R) (b : st K * res R) : Prop :=
    frame H m g (fst a) /\ snd a = snd b /\ forall r, snd b = Ok r -> agrees m (fst a) (fst b).
  Definition runs_l {R} (ms : list (node K)) (g : heap K) (a : heap K * res R) (b : list (st K) * res R) : Prop :=
    frame_l H ms g (fst a) /\ snd a = snd b /\ forall r, snd b = Ok r -> agrees_l ms (fst a) (fst b).

  Lemma keeps_runs {R} (m : node K) g (a : heap K * res R) b : keeps m g a b -> runs m g a b.
  Proof. intros [E0 [E A]]. unfold runs. rewrite E0. split; [apply frame_refl|]. now split. Qed.
  Lemma call_agrees (m : node K) g s x y : sep H m -> snd (call H (oforward H) m g x) = Ok y ->
    agrees m (fst (call H (oforward H) m g x)) (fst (forward (erase m) s x)).
  Proof.
    intros S E. destruct (call H (oforward H) m g x) as [g1 r] eqn:C. cbn in E. subst r. pose proof (call_ok H _ _ _ _ _ C s) as P.
    unfold call in C. pose proof (oforward_agrees H m S g s x y P) as Q. destruct oforward as [g0 [z|]]; [|discriminate]. injection C as <- _. cbn.
    eapply agrees_else; [|exact Q]. intros p _. rewrite push_idx, push_fm. eauto.
  Qed.
  (** from the head of a list to the rest *)
  Lemma tl_else (m : node K) ms g g1 : NoDup (flat_map stateful (m :: ms)) -> frame H m g g1 -> elsewhere (flat_map stateful ms) g g1.
  Proof. intros N F. cbn in N. apply nodup_app in N. destruct N as (_ & _ & D). eapply frame_else; [exact F|]. intros o I J. exact (D o J I). Qed.
  Lemma hd_else (m : node K) ms g g1 : NoDup (flat_map stateful (m :: ms)) -> frame_l H ms g g1 -> elsewhere (stateful m) g g1.
  Proof. intros N F. cbn in N. apply nodup_app in N. destruct N as (_ & _ & D). eapply frame_l_else; [exact F|]. intros o I J. exact (D o I J). Qed.
  Lemma sep_go (ms : list (node K)) : (fix go l := match l with [] => True | m :: l => sep H m /\ go l end) ms -> sep_l H ms.
  Proof. induction ms; cbn; tauto. Qed.
  Lemma frame_skip1 o (F : node K) a b : frame H F a b -> frame H (OSkip o F) a b.
  Proof. intros. now apply frame_skip, frame_l_hd. Qed.

  (** *** jmp *)
  Lemma ojmp_runs : forall m, sep H m -> forall g s x y mat w, agrees m g s ->
    runs m g (ojmp H m g x (Some y) mat w) (jmp (erase m) s x (Some y) mat w).
  Proof.
    refine (node_ind2 (fun m => sep H m -> forall g s x y mat w, agrees m g s -> runs m g (ojmp H m g x (Some y) mat w) (jmp (erase m) s x (Some y) mat w))
      (fun ms => sep_l H ms -> NoDup (flat_map stateful ms) -> forall h g ks fm x,
         (forall v, let b := seq_jmp_in jmp h (map erase ms) ks x fm v in
            runs_l ms g (oseq_jmp_in H (ojmp H) ms g x v) (fst (fst b), snd b) /\ exists e, snd (fst b) = fm ++ e) /\
         (forall v p acc, let b := seq_jmp_w jmp h (map erase ms) ks x fm v p acc in
            runs_l ms g (oseq_jmp_w H (ojmp H) ms g x v p acc) (fst (fst b), snd b) /\ exists e, snd (fst b) = fm ++ e)) _ _ _ _ _ _).
    - intros o l _ g s x y mat w A. apply keeps_runs. split; [reflexivity|]. split; [reflexivity|exact I].
    - intros o c _ g s x y mat w A. apply keeps_runs. cbn in A |- *. destruct mat, w; (split; [reflexivity|split; [cbn; now rewrite ?A|exact A]]).
    - intros o h ms IH S g s x y mat w A. destruct S as [[S1 [S2 S3]] S4]. specialize (IH (sep_go _ S4) S2).
      cbn [erase ojmp jmp]. destruct (wrt_ok w); [|apply keeps_runs; split; [reflexivity|split; [reflexivity|exact A]]].
      destruct mat as [mt|]; [|apply keeps_runs; apply (ojacobian_keeps H (OSeq o h ms) g s x y w A)].
      assert (Fin : forall R (a : heap K * res R) (b : list (st K) * list T * res R), runs_l ms g a (fst (fst b), snd b) -> (exists e, snd (fst b) = st_fm s ++ e) ->
        runs (OSeq o h ms) g a (St (snd (fst b)) (st_idx s) (fst (fst b)), snd b)).
      { intros R a b (F1 & F2 & F3) [e E]. split; [now apply frame_seq|]. split; [exact F2|]. intros r Er. cbn [fst snd] in *. apply agrees_seq. cbn [st_fm st_kids].
        split; [|exact (F3 r Er)]. intros Hh. apply agrees_seq in A. destruct A as [A _]. destruct (A Hh) as [L Ef]. rewrite E. rewrite app_length. split; [lia|].
        destruct F1 as [_ F1]. destruct (F1 o S1) as [e' [E' _]]. rewrite E'. rewrite (firstn_app_eq _ _ _ e' L Ef). symmetry. now apply firstn_app_eq. }
      destruct w.
      + destruct (IH h g (st_kids s) (st_fm s) x) as [I1 _]. destruct (I1 (Some mt)) as [R1 R2]. apply (Fin _ _ _ R1) in R2.
        destruct seq_jmp_in as [[? ?] ?]. exact R2.
      + destruct (IH h g (st_kids s) (st_fm s) x) as [_ I2]. destruct (I2 mt 0 None) as [R1 R2]. apply (Fin _ _ _ R1) in R2.
        destruct seq_jmp_w as [[? ?] ?]. exact R2.
      + destruct (IH h g (st_kids s) (st_fm s) x) as [I1 _]. destruct (I1 (Some mt)) as [R1 R2]. apply (Fin _ _ _ R1) in R2.
        destruct seq_jmp_in as [[? ?] ?]. exact R2.
    - intros o F IH S g s x y mat w A. cbn [erase ojmp jmp]. destruct mat as [mt|]; [|apply keeps_runs; apply (ojacobian_keeps H (OSkip o F) g s x y w A)].
      destruct (size 0 x) as [b|]; [|apply keeps_runs; split; [reflexivity|split; [reflexivity|exact A]]]. cbn [bind].
      destruct (numel0 x) as [l|]; [|apply keeps_runs; split; [reflexivity|split; [reflexivity|exact A]]]. cbn [bind val_tail].
      destruct (slice_from n0 1 l y) as [t|]; [|apply keeps_runs; split; [reflexivity|split; [reflexivity|exact A]]]. cbn [some bind].
      destruct (IH S g (st_kid s) x t (Some mt) w A) as (E1 & E2 & E3). destruct ojmp as [g1 r], jmp as [k r']. cbn [fst snd] in *. subst.
      split; [now apply frame_skip1|]. split; [reflexivity|]. intros q Eq. cbn [fst]. change (agrees F g1 k). destruct r' as [j|]; [now apply (E3 j)|discriminate].
    - intros _ _ h g ks fm x. split; intros; (split; [split; [apply frame_l_refl|split; [reflexivity|intros; exact I]]|exists []; cbn; now rewrite app_nil_r]).
    - intros m ms IHm IHs [Sm Ss] ND h g ks fm x. specialize (IHm Sm).
      assert (ND2 : NoDup (flat_map stateful ms)) by (cbn in ND; apply nodup_app in ND; tauto). specialize (IHs Ss ND2).
      cbn [map oseq_jmp_in seq_jmp_in oseq_jmp_w seq_jmp_w]. destruct (kid_split ks) as [k l].
      pose proof (call_frame H (m :: ms) m g x (or_introl eq_refl) (oforward_frame H m g x)) as Fc.
      pose proof (call_agrees m g k x) as Ca.
      destruct (call H (oforward H) m g x) as [g1 r] eqn:C. pose proof (call_ok H _ _ _ _ _ C k) as P. destruct (forward (erase m) k x) as [k1 r']. cbn [snd] in P. subst r'.
      cbn [fst] in Fc.
      destruct r as [y|]; [|split; intros; (split; [split; [exact Fc|split; [reflexivity|discriminate]]|exists []; cbn; now rewrite app_nil_r])].
      cbn [fst snd] in Ca. specialize (Ca y Sm eq_refl).
      assert (Pu : exists e, hook_push h fm y = fm ++ e) by (destruct h; [now exists [y]|exists []; cbn; now rewrite app_nil_r]).
      split; intros.
      + cbv zeta. destruct (IHm g1 k1 x y v Input Ca) as (R1 & R2 & R3). destruct ojmp as [g2 r], jmp as [k2 r']. cbn [fst snd] in *. subst r'.
        assert (F2 : frame_l H (m :: ms) g g2) by (eapply frame_l_trans; [exact Fc|now apply frame_l_hd]).
        destruct r as [v1|]; [|split; [split; [exact F2|split; [reflexivity|discriminate]]|exact Pu]].
        destruct (IHs h g2 l (hook_push h fm y) y) as [I1 _]. destruct (I1 v1) as [(Q1 & Q2 & Q3) [e Q4]].
        destruct seq_jmp_in as [[ks1 fm1] r1]. cbn [fst snd] in *. split.
        * split; [eapply frame_l_trans; [exact F2|now apply frame_l_tl]|]. split; [exact Q2|]. intros r Er. cbn [fst]. apply agrees_l_cons; [|now apply (Q3 r)].
          eapply agrees_else; [eapply hd_else; [exact ND|exact Q1]|]. now apply (R3 v1).
        * destruct Pu as [e0 Pu]. exists (e0 ++ e). now rewrite Q4, Pu, app_assoc.
      + cbv zeta.
        assert (E : exists g2 k2 r, (match acc with None => (g1, Ok None) | Some a => ojmp H m g1 x (Some y) (Some a) Input end) = (g2, r) /\
          (match acc with None => (k1, Ok None) | Some a => jmp (erase m) k1 x (Some y) (Some a) Input end) = (k2, r) /\
          frame H m g1 g2 /\ forall j, r = Ok j -> agrees m g2 k2).
        { destruct acc as [a|]; [|exists g1, k1, (Ok None); repeat split; auto; apply frame_refl].
          destruct (IHm g1 k1 x y (Some a) Input Ca) as (R1 & R2 & R3). destruct ojmp as [g2 r], jmp as [k2 r']. cbn [fst snd] in *. subst r'. eauto 10. }
        destruct E as (g2 & k2 & r & -> & -> & F2 & A2).
        assert (F2' : frame_l H (m :: ms) g g2) by (eapply frame_l_trans; [exact Fc|now apply frame_l_hd]).
        destruct r as [j|]; cbn [bind]; [|split; [split; [exact F2'|split; [reflexivity|discriminate]]|exact Pu]]. specialize (A2 j eq_refl).
        match goal with |- context [match ?Z with Ok _ => _ | Raise _ => _ end] => destruct Z as [[acc1 vp]|] end; [|split; [split; [exact F2'|split; [reflexivity|discriminate]]|exact Pu]].
        destruct (IHm g2 k2 x y (Some vp) Weight A2) as (R1 & R2 & R3). destruct ojmp as [g3 r3], jmp as [k3 r3']. cbn [fst snd] in *. subst r3'.
        assert (F3 : frame_l H (m :: ms) g g3) by (eapply frame_l_trans; [exact F2'|now apply frame_l_hd]).
        destruct r3 as [new|]; cbn [bind]; [|split; [split; [exact F3|split; [reflexivity|discriminate]]|exact Pu]].
        destruct (accumulate acc1 new) as [acc2|]; [|split; [split; [exact F3|split; [reflexivity|discriminate]]|exact Pu]].
        destruct (IHs h g3 l (hook_push h fm y) y) as [_ I2]. destruct (I2 v (p + n_params (erase m)) acc2) as [(Q1 & Q2 & Q3) [e Q4]].
        destruct seq_jmp_w as [[ks1 fm1] r1]. cbn [fst snd] in *. split.
        * split; [eapply frame_l_trans; [exact F3|now apply frame_l_tl]|]. split; [exact Q2|]. intros r Er. cbn [fst]. apply agrees_l_cons; [|now apply (Q3 r)].
          eapply agrees_else; [eapply hd_else; [exact ND|exact Q1]|]. now apply (R3 new).
        * destruct Pu as [e0 Pu]. exists (e0 ++ e). now rewrite Q4, Pu, app_assoc.
  Qed.

  (** *** jmjTp *)
  Definition reads_ok (h : bool) (l fm : list T) (n : nat) : Prop := h = true -> n < length fm /\ firstn (S n) l = firstn (S n) fm.
  Lemma reads_ok_fmap h l fm n k : reads_ok h l fm n -> k < n -> fmap2 h l k = fmap2 h fm k.
  Proof.
    intros E L. unfold fmap2, fmap_at. destruct h; [|reflexivity]. destruct (E eq_refl) as [_ E']. rewrite !(nth_firstn_eq _ _ _ _ E') by lia. reflexivity.
  Qed.
  Lemma reads_ok_frame h ms g g' o fm n : reads_ok h (h_fm g o) fm n -> frame_l H ms g g' -> ~ In o (flat_map stateful ms) -> reads_ok h (h_fm g' o) fm n.
  Proof.
    intros E [_ F] N Hh. destruct (F o N) as [e [-> _]]. destruct (E Hh) as [L Q]. split; auto. now apply firstn_app_eq.
  Qed.

  Lemma ojmjTp_runs : forall m, sep H m -> forall g s x y mat w fd td db, agrees m g s ->
    runs m g (ojmjTp H m g x (Some y) mat w fd td db) (jmjTp (erase m) s x (Some y) mat w fd td db).
  Proof.
    refine (node_ind2 (fun m => sep H m -> forall g s x y mat w fd td db, agrees m g s ->
         runs m g (ojmjTp H m g x (Some y) mat w fd td db) (jmjTp (erase m) s x (Some y) mat w fd td db))
      (fun ms => sep_l H ms -> NoDup (flat_map stateful ms) -> forall o h fm n, ~ In o (flat_map stateful ms) -> forall g ks k fd td db, agrees_l ms g ks ->
         reads_ok h (h_fm g o) fm n -> k + length ms <= n ->
         (forall v, runs_l ms g (oseq_jmjTp_in (ojmjTp H) o h ms g k v fd td db) (seq_jmjTp_in jmjTp h fm (map erase ms) ks k v fd td db)) /\
         (forall bs acc, runs_l ms g (oseq_jmjTp_w (ojmjTp H) o h ms g k bs acc fd td db) (seq_jmjTp_w jmjTp h fm (map erase ms) ks k bs acc fd td db))) _ _ _ _ _ _).
    - intros o l _ g s x y mat w fd td db A. apply keeps_runs. split; [reflexivity|]. split; [reflexivity|exact I].
    - intros o c _ g s x y mat w fd td db A. apply keeps_runs. split; [reflexivity|split; [reflexivity|exact A]].
    - intros o h ms IH S g s x y mat w fd td db A. destruct S as [[S1 [S2 S3]] S4]. specialize (IH (sep_go _ S4) S2 o h (st_fm s) (length ms) S1).
      assert (Kp : forall r, runs (OSeq o h ms) g (g, r) (s, r) (R := value K)) by (intros r; apply keeps_runs; split; [reflexivity|split; [reflexivity|exact A]]).
      cbn [erase ojmjTp jmjTp oensure ensure]. destruct (db_ok fd td db); [|apply Kp].
      pose proof (proj1 (agrees_seq _ _ _ _ _) A) as [A1 A2].
      assert (Fin : forall R (a : heap K * res R) b, runs_l ms g a b -> runs (OSeq o h ms) g a (St (st_fm s) (st_idx s) (fst b), snd b)).
      { intros R a b (F1 & F2 & F3). split; [now apply frame_seq|]. split; [exact F2|]. intros r Er. cbn [fst snd] in *. apply agrees_seq. cbn [st_fm st_kids].
        split; [|exact (F3 r Er)]. exact (reads_ok_frame h ms g (fst a) o (st_fm s) (length ms) A1 F1 S1). }
      destruct w.
      + destruct (match mat with VNone => (VT (ones (shape x)), true) | v => (v, fd) end) as [mt fd'].
        destruct (IH g (st_kids s) 0 fd' td db A2 A1 (le_n _)) as [I1 _]. specialize (Fin _ _ _ (I1 mt)). destruct seq_jmjTp_in. exact Fin.
      + change (Seq h (map erase ms)) with (erase (OSeq o h ms)).
        match goal with |- runs _ _ (match ?Z with _ => _ end) _ => destruct Z as [[bs fd']|] end; [|apply Kp].
        destruct (IH g (st_kids s) 0 fd' td db A2 A1 (le_n _)) as [_ I2]. specialize (Fin _ _ _ (I2 bs VNone)). destruct seq_jmjTp_w. exact Fin.
      + apply Kp.
    - intros o F IH S g s x y mat w fd td db A. cbn [erase ojmjTp jmjTp oensure ensure].
      assert (Kp : forall g1 s1 r, frame H F g g1 -> agrees F g1 (st_kid s1) -> runs (OSkip o F) g (g1, r) (s1, r) (R := value K)).
      { intros g1 s1 r F1 A1. split; [now apply frame_skip1|]. split; [reflexivity|]. intros _ _. exact A1. }
      assert (Kr : forall g1 s1 e, frame H F g g1 -> runs (OSkip o F) g (g1, Raise e) (s1, Raise e) (R := value K)).
      { intros g1 s1 e F1. split; [now apply frame_skip1|]. split; [reflexivity|]. discriminate. }
      destruct (db_ok fd td db); [|apply Kp; [apply frame_refl|exact A]].
      match goal with |- runs _ _ (match ?Z with _ => _ end) _ => destruct Z as [[[[b l1] l2] t]|] end; [|apply Kr, frame_refl].
      destruct (IH S g (st_kid s) x t mat w fd td db A) as (E1 & E2 & E3). destruct ojmjTp as [g1 r], jmjTp as [k r']. cbn [fst snd] in *. subst.
      destruct r' as [j|]; [|now apply Kr]. specialize (E3 j eq_refl). destruct w; [|now apply Kp|now apply Kp].
      destruct td; [now apply Kp|].
      match goal with |- runs _ _ (match ?Z with _ => _ end) _ => destruct Z as [mt|] end; [|now apply Kr].
      change (st_kid (set_kid s k)) with k.
      destruct (ojmp_runs F S g1 k x t (Some mt) Input E3) as (R1 & R2 & R3). destruct ojmp as [g2 r2], jmp as [k2 r2']. cbn [fst snd] in *. subst.
      assert (F2 : frame H F g g2) by (eapply frame_trans; eauto).
      destruct r2' as [jm|]; cbn [bind]; [|now apply Kr]. specialize (R3 jm eq_refl). destruct (need jm) as [jm1|]; [|now apply Kr].
      destruct fd; [now apply Kp|]. destruct (transpose12 n0 mt) as [mtT|]; [|now apply Kr].
      change (st_kid (set_kid (set_kid s k) k2)) with k2.
      destruct (ojmp_runs F S g2 k2 x t (Some mtT) Input R3) as (Q1 & Q2 & Q3). destruct ojmp as [g3 r3], jmp as [k3 r3']. cbn [fst snd] in *. subst.
      assert (F3 : frame H F g g3) by (eapply frame_trans; eauto).
      destruct r3' as [mj|]; cbn [bind]; [|now apply Kr]. specialize (Q3 mj eq_refl). now apply Kp.
    - intros. split; intros; (split; [apply frame_l_refl|split; [reflexivity|intros; exact I]]).
    - intros m ms IHm IHs [Sm Ss] ND o h fm n No g ks k fd td db A Rd Lk. specialize (IHm Sm). cbn [length] in Lk.
      assert (ND2 : NoDup (flat_map stateful ms)) by (cbn in ND; apply nodup_app in ND; tauto).
      assert (No2 : ~ In o (flat_map stateful ms)) by (cbn in No; rewrite in_app_iff in No; tauto). specialize (IHs Ss ND2 o h fm n No2).
      cbn [map oseq_jmjTp_in seq_jmjTp_in oseq_jmjTp_w seq_jmjTp_w]. destruct A as [A0 A1]. destruct (kid_split ks) as [s l]. cbn [fst snd] in *.
      replace (match map erase ms with [] => td | _ => db end) with (match ms with [] => td | _ => db end) by now destruct ms.
      set (td' := match ms with [] => td | _ => db end).
      assert (Kr : forall R g1 (s1 : st K) e, frame_l H (m :: ms) g g1 -> runs_l (m :: ms) g (g1, Raise e) (s1 :: l, Raise e) (R := R)).
      { intros R g1 s1 e F1. split; [exact F1|]. split; [reflexivity|]. discriminate. }
      assert (Rec : forall R g1 s1 a (b : list (st K) * res R), frame H m g g1 -> agrees m g1 s1 -> (agrees_l ms g1 l -> reads_ok h (h_fm g1 o) fm n -> runs_l ms g1 a b) ->
        runs_l (m :: ms) g a (s1 :: fst b, snd b)).
      { intros R g1 s1 a b F1 B1 Rb. assert (F1' := frame_l_hd H m ms _ _ F1). destruct Rb as (Q1 & Q2 & Q3).
        - eapply agrees_l_else; [eapply tl_else; [exact ND|exact F1]|exact A1].
        - eapply reads_ok_frame; [exact Rd|exact F1'|exact No].
        - split; [eapply frame_l_trans; [exact F1'|now apply frame_l_tl]|]. split; [exact Q2|]. intros r Er. cbn [fst]. apply agrees_l_cons; [|now apply (Q3 r)].
          eapply agrees_else; [eapply hd_else; [exact ND|exact Q1]|exact B1]. }
      split; intros.
      + rewrite (reads_ok_fmap _ _ _ _ k Rd) by lia. destruct (fmap2 h fm k) as [[x y]|]; [|apply Kr, frame_l_refl].
        destruct (IHm g s x y v Input (if Nat.eqb k 0 then fd else db) td' db A0) as (R1 & R2 & R3).
        destruct ojmjTp as [g1 r], jmjTp as [s1 r']. cbn [fst snd] in *. subst r'.
        destruct r as [v1|]; [|now apply Kr, frame_l_hd].
        pose proof (Rec _ g1 s1 (oseq_jmjTp_in (ojmjTp H) o h ms g1 (S k) v1 fd td db) (seq_jmjTp_in jmjTp h fm (map erase ms) l (S k) v1 fd td db) R1 (R3 v1 eq_refl)
          (fun B C => proj1 (IHs g1 l (S k) fd td db B C ltac:(lia)) v1)) as Z.
        destruct seq_jmjTp_in. exact Z.
      + assert (E : exists g1 s1 r, (match acc with VNone => (g, Ok VNone) | a => match fmap2 h (h_fm g o) k with Raise e => (g, Raise e) | Ok (x, y) => ojmjTp H m g x (Some y) a Input db td' db end end) = (g1, r) /\
          (match acc with VNone => (s, Ok VNone) | a => match fmap2 h fm k with Raise e => (s, Raise e) | Ok (x, y) => jmjTp (erase m) s x (Some y) a Input db td' db end end) = (s1, r) /\
          frame H m g g1 /\ forall j, r = Ok j -> agrees m g1 s1).
        { rewrite (reads_ok_fmap _ _ _ _ k Rd) by lia.
          assert (Z : forall a, exists g1 s1 r, (match fmap2 h fm k with Raise e => (g, Raise e) | Ok (x, y) => ojmjTp H m g x (Some y) a Input db td' db end) = (g1, r) /\
            (match fmap2 h fm k with Raise e => (s, Raise e) | Ok (x, y) => jmjTp (erase m) s x (Some y) a Input db td' db end) = (s1, r) /\
            frame H m g g1 /\ forall j, r = Ok j -> agrees m g1 s1).
          { intros a. destruct (fmap2 h fm k) as [[x y]|e]; [|exists g, s, (Raise e); repeat split; auto; apply frame_refl].
            destruct (IHm g s x y a Input db td' db A0) as (R1 & R2 & R3). destruct ojmjTp as [g1 r], jmjTp as [s1 r']. cbn [fst snd] in *. subst r'. eauto 10. }
          destruct acc; [exists g, s, (Ok VNone); repeat split; auto; apply frame_refl|apply Z|apply Z]. }
        destruct E as (g1 & s1 & r & -> & -> & F1 & B1).
        assert (Rd1 : reads_ok h (h_fm g1 o) fm n) by (eapply reads_ok_frame; [exact Rd|now apply (frame_l_hd H m ms)|exact No]).
        destruct r as [acc1|]; [|now apply Kr, frame_l_hd]. specialize (B1 acc1 eq_refl).
        destruct (Nat.eqb (n_params (erase m)) 0).
        { pose proof (Rec _ g1 s1 (oseq_jmjTp_w (ojmjTp H) o h ms g1 (S k) bs acc1 fd td db) (seq_jmjTp_w jmjTp h fm (map erase ms) l (S k) bs acc1 fd td db) F1 B1
            (fun B C => proj2 (IHs g1 l (S k) fd td db B C ltac:(lia)) bs acc1)) as Z.
          destruct seq_jmjTp_w. exact Z. }
        rewrite (reads_ok_fmap _ _ _ _ k Rd1) by lia. destruct (fmap2 h fm k) as [[x y]|]; cbn [bind]; [|now apply Kr, frame_l_hd].
        destruct bs as [|b bs]; [now apply Kr, frame_l_hd|].
        destruct (IHm g1 s1 x y b Weight fd td' db B1) as (R1 & R2 & R3). destruct ojmjTp as [g2 r2], jmjTp as [s2 r2']. cbn [fst snd] in *. subst r2'.
        assert (F2 : frame H m g g2) by (eapply frame_trans; eauto).
        destruct r2 as [new|]; cbn [bind]; [|now apply Kr, frame_l_hd]. specialize (R3 new eq_refl).
        match goal with |- runs_l _ _ (match ?Z with _ => _ end) _ => destruct Z as [acc2|] end; [|now apply Kr, frame_l_hd].
        pose proof (Rec _ g2 s2 (oseq_jmjTp_w (ojmjTp H) o h ms g2 (S k) bs (of_opt acc2) fd td db) (seq_jmjTp_w jmjTp h fm (map erase ms) l (S k) bs (of_opt acc2) fd td db) F2 R3
          (fun B C => proj2 (IHs g2 l (S k) fd td db B C ltac:(lia)) bs (of_opt acc2))) as Z.
        destruct seq_jmjTp_w. exact Z.
  Qed.
End ObjPush.
