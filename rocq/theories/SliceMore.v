(** Slices: the parameters, and what a call appends to the feature maps. *)
From Coq Require Import List Arith ZArith Lia Bool.
From Verif Require Import Scalar Sums Tensor TensorLemmas Conv Abstract Simple LinearLayer ConvLayer PoolLayer Module Spec Domain Jac TreeBase StateCoh StateSim Leaves
  Trees Calls ValArg Frozen History Params Slice SliceProofs.
Import ListNotations.
Local Open Scope nat_scope.
Local Open Scope list_scope.

Section Weights.
  Context {K} `{N : Num K}.
  Notation T := (tensor K).
  Implicit Types (ms : list (module K)).

  Lemma cut {A} (r : range) (l : list A) : l = firstn (fst r) l ++ sub r l ++ skipn (fst r + length (sub r l)) l.
  Proof.
    transitivity (paste (fst r) (sub r l) l); [|reflexivity]. apply list_ext. intros p. pose proof (sub_length r l) as L. rewrite nth_paste by lia.
    destruct (_ && _) eqn:G; auto. apply andb_true_iff in G as [G1 G2]. apply Nat.leb_le in G1. apply Nat.ltb_lt in G2.
    rewrite nth_sub. destruct (Nat.ltb_spec (p - fst r) (snd r)); [|lia]. f_equal. lia.
  Qed.
  Lemma take_all {A} (l l' : list A) : firstn (length l) (l ++ l') = l.
  Proof. induction l; cbn; congruence. Qed.
  Lemma drop_all {A} (l l' : list A) : skipn (length l) (l ++ l') = l'.
  Proof. induction l; cbn; auto. Qed.
  Lemma spdata_app ms ms' : spdata (ms ++ ms') = spdata ms ++ spdata ms'.
  Proof. unfold spdata. now rewrite !flat_map_app. Qed.
  Lemma sized_app ms ms' : sized_seq (ms ++ ms') <-> sized_seq ms /\ sized_seq ms'.
  Proof. induction ms as [|m ms IH]; cbn; [tauto|]. rewrite IH. tauto. Qed.
  Lemma sized_Seq h ms : sized (Seq h ms) <-> sized_seq ms.
  Proof. cbn [sized]. now rewrite sized_go. Qed.
  Lemma spdata_len ms : sized_seq ms -> length (spdata ms) = n_params (Seq true ms).
  Proof. intros Sz. exact (pdata_len (Seq true ms) (proj2 (sized_Seq true ms) Sz)). Qed.
  Lemma archs_len ms ms' : archs ms ms' -> length ms' = length ms.
  Proof. induction 1; cbn; auto. Qed.

  Theorem slice_weight ms (r : range) (w : T) : sized (Seq true ms) -> params (net ms r) <> [] -> shape w = [n_params (net ms r)] -> wf w ->
    exists ms', sh_set_weight ms r w = (ms', Ok tt) /\ get_weight (net ms' r) = Ok w /\
      (forall r', fst r' + snd r' <= fst r \/ fst r + snd r <= fst r' -> net ms' r' = net ms r') /\
      forall w0, get_weight (Seq true ms) = Ok w0 -> let a := n_params (Seq true (firstn (fst r) ms)) in
        get_weight (Seq true ms') = Ok (mkT (shape w0) (firstn a (data w0) ++ data w ++ skipn (a + length (data w)) (data w0))).
  Proof.
    intros Sz P Sw Ww. apply sized_Seq in Sz. pose proof Sz as Sz0. rewrite (cut r ms) in Sz. apply sized_app in Sz as [S1 Sz]. apply sized_app in Sz as [S2 S3].
    assert (L : length (data w) = n_params (net ms r)) by (unfold wf in Ww; rewrite Ww, Sw; unfold numel; cbn [fold_right]; lia).
    destruct (set_get (net ms r) w (proj2 (sized_Seq true _) S2) P Sw Ww) as (m' & E & A & Sz' & G). unfold net in A. assert (exists ms', m' = Seq true ms' /\ archs (sub r ms) ms') as (ms' & -> & Ar) by (inversion A; subst; eauto).
    pose proof (archs_len _ _ Ar) as Le. exists (paste (fst r) ms' ms). unfold sh_set_weight. rewrite E.
    assert (Lr : length ms' <= length ms - fst r) by (rewrite Le, sub_length; lia).
    split; [reflexivity|]. split; [unfold net; now rewrite sub_paste_same|]. split.
    - intros r' D. unfold net. f_equal. apply list_ext. intros p. rewrite !nth_sub. destruct (Nat.ltb_spec p (snd r')) as [Lp|Lp]; auto.
      rewrite nth_paste by exact Lr. destruct (Nat.leb_spec (fst r) (fst r' + p)); auto. cbn [andb].
      destruct (Nat.ltb_spec (fst r' + p) (fst r + length ms')) as [Q|Q]; auto. rewrite Le, sub_length in Q. lia.
    - intros w0 G0. cbv zeta. set (a := n_params (Seq true (firstn (fst r) ms))). apply sized_Seq in Sz'.
      assert (D0 : data w0 = spdata (firstn (fst r) ms) ++ spdata (sub r ms) ++ spdata (skipn (fst r + length (sub r ms)) ms) /\ shape w0 = [n_params (Seq true ms)]).
      { destruct (params (Seq true ms)) eqn:Pn; [unfold get_weight in G0; now rewrite Pn in G0|].
        rewrite get_weight_ok in G0; [|now apply sized_Seq|rewrite Pn; discriminate]. injection G0 as <-. cbn [data shape]. split; auto.
        change (pdata (Seq true ms)) with (spdata ms). rewrite (cut r ms) at 1. now rewrite !spdata_app. }
      assert (Dw : data w = spdata ms').
      { destruct (params (Seq true ms')) eqn:Pn; [unfold get_weight in G; now rewrite Pn in G|].
        rewrite get_weight_ok in G; [|now apply sized_Seq|rewrite Pn; discriminate]. now injection G as <-. }
      destruct D0 as [D0 Sh0].
      assert (La : length (spdata (firstn (fst r) ms)) = a) by now apply spdata_len.
      assert (Lm : length (data w) = length (spdata (sub r ms))) by (rewrite L, spdata_len; auto).
      assert (Dn : spdata (paste (fst r) ms' ms) = spdata (firstn (fst r) ms) ++ data w ++ spdata (skipn (fst r + length (sub r ms)) ms)).
      { unfold paste. rewrite !spdata_app, Dw, Le. reflexivity. }
      rewrite get_weight_ok.
      + f_equal. apply tensor_ext; cbn [shape data].
        * rewrite Sh0. f_equal. rewrite <- !spdata_len; auto.
          -- rewrite Dn. rewrite (cut r ms) at 4. rewrite !spdata_app, !app_length. lia.
          -- unfold paste. rewrite Le. apply sized_app. split; auto. apply sized_app. auto.
        * change (pdata (Seq true (paste (fst r) ms' ms))) with (spdata (paste (fst r) ms' ms)). rewrite Dn, D0, <- La, Lm.
          rewrite take_all, <- (skipn_add (length (spdata (firstn (fst r) ms)))), drop_all, drop_all. reflexivity.
      + apply sized_Seq. unfold paste. rewrite Le. apply sized_app. split; auto. apply sized_app. auto.
      + intros Pn. cbn [params] in Pn. unfold paste in Pn. rewrite !flat_map_app in Pn. apply app_eq_nil in Pn as [_ Pn]. apply app_eq_nil in Pn as [Pn _].
        unfold get_weight in G. cbn [params] in G. now rewrite Pn in G.
  Qed.
End Weights.

Section Outputs.
  Context {K} `{N : Num K}.
  Notation T := (tensor K).
  Implicit Types (ms : list (module K)).

  Lemma forward_fm_ext f ms : forall ks (x : T) fm, ext fm (snd (fst (seq_forward f true ms ks x fm))).
  Proof.
    induction ms as [|m ms IH]; intros ks x fm; cbn [seq_forward]; [apply ext_refl|].
    destruct (kid_split ks) as [k ks']. destruct (f m k x) as [k' [y|e]]; [|apply ext_refl].
    specialize (IH ks' y (hook_push true fm y)). destruct (seq_forward f true ms ks' y _) as [[a fm'] r]. cbn [fst snd] in *. now apply (ext_push true fm y).
  Qed.
  Lemma forward_fm ms s (x : T) : ext [x] (st_fm (fst (forward (Seq true ms) s x))).
  Proof.
    cbn [forward]. pose proof (forward_fm_ext forward ms (st_kids s) x [x]) as E. destruct (seq_forward _ _ _ _ _ _) as [[a fm] r]. exact E.
  Qed.
  Lemma ensure_fm ms s (x : T) val : ext (match val with None => [x] | Some _ => st_fm s end) (st_fm (fst (ensure (Seq true ms) s x val))).
  Proof. destruct val; [apply ext_refl|apply forward_fm]. Qed.
  Ltac inner := match goal with |- context [match ?c with _ => _ end] => destruct c end.
  Lemma mjp_fm ms s (x : T) val mat w : wrt_ok w = true -> st_fm (fst (mjp (Seq true ms) s x val mat w)) = st_fm (fst (ensure (Seq true ms) s x val)).
  Proof. intros E. cbn [mjp]. rewrite E. destruct (ensure (Seq true ms) s x val) as [s1 r1]. cbn [fst]. repeat inner; reflexivity. Qed.
  Lemma mjp_other ms s (x : T) val mat w : wrt_ok w = false -> fst (mjp (Seq true ms) s x val mat w) = s.
  Proof. intros E. cbn [mjp]. now rewrite E. Qed.
  Theorem appended ms s (c : call K) :
    ext (if restarts c then [point c] else st_fm s) (st_fm (fst (perform (Seq true ms) s c))).
  Proof.
    assert (M : forall x val mat w, ext (if match val with None => wrt_ok w | Some _ => false end then [x] else st_fm s) (st_fm (fst (mjp (Seq true ms) s x val mat w)))).
    { intros x val mat w. destruct (wrt_ok w) eqn:E.
      - rewrite mjp_fm by auto. pose proof (ensure_fm ms s x val) as Q. now destruct val.
      - rewrite mjp_other by auto. destruct val; apply ext_refl. }
    destruct c as [x|x val w|x val v w|x val mat w|x val mat w fd td db|x val v w|x val mat w|x val mat w fd td db]; cbn [perform opt_result fst restarts point].
    - apply forward_fm.
    - apply (M x val None w).
    - cbn [jvp]. destruct w; cbn [fst]; [| |apply ext_refl].
      + pose proof (seq_jvp_ext jvp true ms (st_kids s) x (st_fm s) v) as [E _]. destruct (seq_jvp_in _ _ _ _ _ _ _) as [[a fm] r]. exact E.
      + pose proof (seq_jvp_ext jvp true ms (st_kids s) x (st_fm s) v) as [_ E]. specialize (E 0 None). destruct (seq_jvp_w _ _ _ _ _ _ _ _ _) as [[a fm] r]. exact E.
    - destruct mat as [mt|].
      + cbn [jmp]. destruct w; cbn [wrt_ok fst]; [| |apply ext_refl].
        * pose proof (seq_jmp_ext jmp true ms (st_kids s) x (st_fm s)) as [E _]. specialize (E (Some mt)). destruct (seq_jmp_in _ _ _ _ _ _ _) as [[a fm] r]. exact E.
        * pose proof (seq_jmp_ext jmp true ms (st_kids s) x (st_fm s)) as [_ E]. specialize (E mt 0 None). destruct (seq_jmp_w _ _ _ _ _ _ _ _ _) as [[a fm] r]. exact E.
      + cbn [jmp]. destruct (wrt_ok w) eqn:E; [specialize (M x val None w); rewrite E in M; exact M|destruct val; apply ext_refl].
    - cbn [jmjTp]. destruct (db_ok fd td db) eqn:E; [|destruct val; apply ext_refl]. pose proof (ensure_fm ms s x val) as Q.
      destruct (ensure (Seq true ms) s x val) as [s1 r1]. cbn [fst] in Q. destruct val; repeat inner; exact Q.
    - cbn [vjp]. destruct (wrt_ok w) eqn:E; [|destruct val; apply ext_refl]. pose proof (ensure_fm ms s x val) as Q.
      destruct (ensure (Seq true ms) s x val) as [s1 r1]. cbn [fst] in Q. destruct val; repeat inner; exact Q.
    - apply M.
    - cbn [jTmjp]. destruct (db_ok fd td db) eqn:E; [|destruct val; apply ext_refl]. pose proof (ensure_fm ms s x val) as Q.
      destruct (ensure (Seq true ms) s x val) as [s1 r1]. cbn [fst] in Q. destruct val; repeat inner; exact Q.
  Qed.
  Theorem outputs ms s (c : call K) : let s' := fst (perform (Seq true ms) s c) in
    st_fm s' = (if restarts c then [point c] else st_fm s) ++ produced c (st_fm s) (st_fm s').
  Proof.
    destruct (appended ms s c) as [o E]. cbv zeta. rewrite E. unfold produced. destruct (restarts c); [reflexivity|]. now rewrite drop_all.
  Qed.
End Outputs.
