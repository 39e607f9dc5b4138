(** Parameters: counting, get_weight and set_weight. *)
From Coq Require Import String Ascii List Arith ZArith Lia Bool.
From Verif Require Import Scalar Sums Tensor TensorLemmas Conv Abstract Simple LinearLayer ConvLayer PoolLayer
  Module Spec Domain Jac TreeBase Trees.
Import ListNotations.
Local Open Scope nat_scope.
Local Open Scope list_scope.

Section Params.
  Context {K} `{N : Num K}.
  Notation T := (tensor K).

  Fixpoint sized_seq (ms : list (module K)) : Prop := match ms with [] => True | m :: l => sized m /\ sized_seq l end.
  Lemma sized_go (ms : list (module K)) : (fix go l := match l with [] => True | m :: l => sized m /\ go l end) ms = sized_seq ms.
  Proof. induction ms as [|m ms IH]; cbn; auto; now rewrite IH. Qed.

  (** all parameters in one list *)
  Definition pdata (m : module K) : list K := flat_map (@data K) (params m).
  Definition spdata (ms : list (module K)) : list K := flat_map (@data K) (flat_map params ms).
  Lemma spdata_cons m ms : spdata (m :: ms) = pdata m ++ spdata ms.
  Proof. unfold spdata, pdata. cbn [flat_map]. apply flat_map_app. Qed.

  Lemma leaf_len (l : leaf K) : leaf_sized l -> length (flat_map (@data K) (leaf_params l)) = leaf_n_params l.
  Proof.
    destruct l as [W bias|cfg W bias| | | | | |]; cbn; auto.
    - intros (c1 & c2 & S & Ww & B). unfold lin_n_params, dim. rewrite S. cbn [nth]. rewrite app_length. unfold wf in *. rewrite S in Ww.
      destruct bias as [t|]; cbn.
      + destruct B as [St Wt]. unfold wf in Wt. rewrite St in Wt. rewrite ?St, app_nil_r, Ww, Wt. unfold numel; cbn [fold_right]; lia.
      + cbn in *. lia.
    - intros (c1 & c2 & kh & kw & S & Ww & B). unfold conv_n_params, dim. rewrite S. cbn [nth]. rewrite app_length. unfold wf in *. rewrite S in Ww.
      destruct bias as [t|]; cbn.
      + destruct B as [St Wt]. unfold wf in Wt. rewrite St in Wt. rewrite ?St, app_nil_r, Ww, Wt. unfold numel; cbn [fold_right]; lia.
      + cbn in *. lia.
  Qed.
  Lemma pdata_len : forall m : module K, sized m -> length (pdata m) = n_params m.
  Proof.
    refine (module_ind2 (fun m => sized m -> length (pdata m) = n_params m) (fun ms => sized_seq ms -> length (spdata ms) = seq_np ms) _ _ _ _ _ _).
    - exact leaf_len.
    - reflexivity.
    - intros h ms IH S. cbn [sized] in S. rewrite sized_go in S. exact (IH S).
    - intros F IH S. exact (IH S).
    - reflexivity.
    - intros m ms IH IHs [S Ss]. rewrite spdata_cons, app_length, (IH S), (IHs Ss). reflexivity.
  Qed.

  (** assigning *)
  Definition set_ok (m : module K) (v : list K) : Prop :=
    exists m', set_params m v = (m', Ok (skipn (n_params m) v)) /\ arch m m' /\ sized m' /\ pdata m' = firstn (n_params m) v.
  Definition set_oks (ms : list (module K)) (v : list K) : Prop :=
    exists ms', seq_set set_params ms v = (ms', Ok (skipn (seq_np ms) v)) /\ archs ms ms' /\ sized_seq ms' /\ spdata ms' = firstn (seq_np ms) v.

  Lemma take_ok (p : T) v : numel (shape p) <= length v -> take_param p v = Ok (mkT (shape p) (firstn (numel (shape p)) v), skipn (numel (shape p)) v).
  Proof. intros H. unfold take_param. now rewrite (proj2 (Nat.leb_le _ _) H). Qed.
  Lemma take_wf s (v : list K) : numel s <= length v -> wf (mkT s (firstn (numel s) v)).
  Proof. intros H. unfold wf. cbn. rewrite firstn_length. lia. Qed.
  Lemma firstn_add {A} n k (v : list A) : firstn (n + k) v = firstn n v ++ firstn k (skipn n v).
  Proof. revert v; induction n as [|n IH]; intros v; [reflexivity|]. destruct v; [cbn; now rewrite firstn_nil|]. cbn. now rewrite IH. Qed.
  Lemma skipn_add {A} n k (v : list A) : skipn k (skipn n v) = skipn (n + k) v.
  Proof. revert v; induction n as [|n IH]; intros v; [reflexivity|]. destruct v; [cbn; now rewrite skipn_nil|]. cbn. apply IH. Qed.

  Lemma two_params (W : T) (bias : option T) c2 v : wf W -> bias_ok bias c2 ->
    numel (shape W) + match bias with Some _ => c2 | None => 0 end <= length v ->
    exists W' bias', shape W = shape W' /\ option_map shape bias = option_map shape bias' /\ wf W' /\ bias_ok bias' c2 /\
      flat_map (@data K) (W' :: match bias' with Some t => [t] | None => [] end) = firstn (numel (shape W) + match bias with Some _ => c2 | None => 0 end) v /\
      take_param W v = Ok (W', skipn (numel (shape W)) v) /\
      match bias with None => bias' = None
      | Some t => exists t', bias' = Some t' /\ take_param t (skipn (numel (shape W)) v) = Ok (t', skipn (numel (shape W) + c2) v) end.
  Proof.
    intros WW B L. exists (mkT (shape W) (firstn (numel (shape W)) v)).
    destruct bias as [t|].
    - destruct B as [St Wt]. exists (Some (mkT (shape t) (firstn (numel (shape t)) (skipn (numel (shape W)) v)))).
      assert (Nt : numel (shape t) = c2) by (rewrite St; unfold numel; cbn; lia).
      assert (L2 : numel (shape t) <= length (skipn (numel (shape W)) v)) by (rewrite skipn_length; lia).
      split; [reflexivity|]. split; [reflexivity|]. split; [apply take_wf; lia|]. split; [split; [auto|now apply take_wf]|].
      split; [cbn; rewrite app_nil_r, Nt; symmetry; apply firstn_add|]. split; [apply take_ok; lia|].
      eexists. split; [reflexivity|]. rewrite take_ok by auto. now rewrite Nt, skipn_add.
    - exists None. split; [reflexivity|]. split; [reflexivity|]. split; [apply take_wf; lia|]. split; [exact I|].
      split; [cbn; rewrite app_nil_r, Nat.add_0_r; reflexivity|]. split; [apply take_ok; lia|]. reflexivity.
  Qed.

  Lemma set_params_ok : forall (m : module K) v, sized m -> n_params m <= length v -> set_ok m v.
  Proof.
    refine (module_ind2 (fun m => forall v, sized m -> n_params m <= length v -> set_ok m v)
      (fun ms => forall v, sized_seq ms -> seq_np ms <= length v -> set_oks ms v) _ _ _ _ _ _).
    - intros l v S L. unfold set_ok. cbn [set_params]. destruct l as [W bias|cfg W bias| | | | | |]; cbn [leaf_set];
        try (eexists; split; [reflexivity|]; split; [now constructor|]; split; [exact I|reflexivity]).
      + destruct S as (c1 & c2 & SW & WW & B).
        assert (Np : n_params (Leaf (Linear W bias)) = numel (shape W) + match bias with Some _ => c2 | None => 0 end).
        { cbn. unfold lin_n_params, dim. rewrite SW. destruct bias as [t|]; [destruct B as [St _]; rewrite ?St|]; unfold numel; cbn [nth fold_right]; lia. }
        rewrite Np in *. destruct (two_params W bias c2 v WW B L) as (W' & b' & E1 & E2 & E3 & E4 & E5 & E6 & E7). rewrite E6.
        exists (Leaf (Linear W' b')). split.
        * destruct bias as [t|]; [destruct E7 as (t' & -> & ->); reflexivity|]. rewrite E7, Nat.add_0_r. reflexivity.
        * split; [constructor; split; auto|]. split; [cbn; exists c1, c2; rewrite <- E1; auto|]. exact E5.
      + destruct S as (c1 & c2 & kh & kw & SW & WW & B).
        assert (Np : n_params (Leaf (Conv2d cfg W bias)) = numel (shape W) + match bias with Some _ => c2 | None => 0 end).
        { cbn. unfold conv_n_params, dim. rewrite SW. destruct bias as [t|]; [destruct B as [St _]; rewrite ?St|]; unfold numel; cbn [nth fold_right]; lia. }
        rewrite Np in *. destruct (two_params W bias c2 v WW B L) as (W' & b' & E1 & E2 & E3 & E4 & E5 & E6 & E7). rewrite E6.
        exists (Leaf (Conv2d cfg W' b')). split.
        * destruct bias as [t|]; [destruct E7 as (t' & -> & ->); reflexivity|]. rewrite E7, Nat.add_0_r. reflexivity.
        * split; [constructor; split; auto|]. split; [cbn; exists c1, c2, kh, kw; rewrite <- E1; auto|]. exact E5.
    - intros cfg v _ _. exists (MaxPool cfg). repeat split; constructor.
    - intros h ms IH v S L. cbn [sized] in S. rewrite sized_go in S. destruct (IH v S L) as (ms' & E & A & Z & P).
      exists (Seq h ms'). cbn [set_params]. rewrite E. split; [reflexivity|]. split; [now constructor|]. split; [cbn [sized]; now rewrite sized_go|exact P].
    - intros F IH v S L. destruct (IH v S L) as (F' & E & A & Z & P). exists (Skip F'). cbn [set_params]. rewrite E.
      split; [reflexivity|]. split; [now constructor|]. auto.
    - intros v _ _. exists []. repeat split; constructor.
    - intros m ms IH IHs v [S Ss] L. change (seq_np (m :: ms)) with (n_params m + seq_np ms) in L.
      destruct (IH v S ltac:(lia)) as (m' & E & A & Z & P).
      destruct (IHs (skipn (n_params m) v) Ss ltac:(rewrite skipn_length; lia)) as (ms' & Es & As & Zs & Ps).
      exists (m' :: ms'). cbn [seq_set]. rewrite E, Es. split; [now rewrite skipn_add|]. split; [now constructor|]. split; [now split|].
      rewrite spdata_cons, P, Ps. symmetry. apply firstn_add.
  Qed.

  Lemma take_short (p : T) v : length v < numel (shape p) -> take_param p v = Raise RuntimeError.
  Proof. intros H. unfold take_param. now rewrite (proj2 (Nat.leb_gt _ _) H). Qed.
  Lemma set_params_short : forall (m : module K) v, sized m -> length v < n_params m -> snd (set_params m v) = Raise RuntimeError.
  Proof.
    refine (module_ind2 (fun m => forall v, sized m -> length v < n_params m -> snd (set_params m v) = Raise RuntimeError)
      (fun ms => forall v, sized_seq ms -> length v < seq_np ms -> snd (seq_set set_params ms v) = Raise RuntimeError) _ _ _ _ _ _).
    - intros l v S L. cbn [set_params]. destruct l as [W bias|cfg W bias| | | | | |]; cbn [leaf_set]; try (cbn in L; lia).
      + destruct S as (c1 & c2 & SW & WW & B).
        assert (Np : n_params (Leaf (Linear W bias)) = numel (shape W) + match bias with Some _ => c2 | None => 0 end).
        { cbn. unfold lin_n_params, dim. rewrite SW. destruct bias as [t|]; [destruct B as [St _]; rewrite ?St|]; unfold numel; cbn [nth fold_right]; lia. }
        rewrite Np in L. destruct (Nat.ltb_spec (length v) (numel (shape W))).
        * now rewrite take_short.
        * rewrite take_ok by auto. destruct bias as [t|]; [|lia]. destruct B as [St Wt].
          rewrite take_short; [reflexivity|]. rewrite skipn_length, St. change (numel [c2]) with (c2 * 1). lia.
      + destruct S as (c1 & c2 & kh & kw & SW & WW & B).
        assert (Np : n_params (Leaf (Conv2d cfg W bias)) = numel (shape W) + match bias with Some _ => c2 | None => 0 end).
        { cbn. unfold conv_n_params, dim. rewrite SW. destruct bias as [t|]; [destruct B as [St _]; rewrite ?St|]; unfold numel; cbn [nth fold_right]; lia. }
        rewrite Np in L. destruct (Nat.ltb_spec (length v) (numel (shape W))).
        * now rewrite take_short.
        * rewrite take_ok by auto. destruct bias as [t|]; [|lia]. destruct B as [St Wt].
          rewrite take_short; [reflexivity|]. rewrite skipn_length, St. change (numel [c2]) with (c2 * 1). lia.
    - intros cfg v _ L. cbn in L. lia.
    - intros h ms IH v S L. cbn [sized] in S. rewrite sized_go in S. specialize (IH v S L). cbn [set_params].
      destruct (seq_set set_params ms v). exact IH.
    - intros F IH v S L. specialize (IH v S L). cbn [set_params]. destruct (set_params F v). exact IH.
    - intros v _ L. cbn in L. lia.
    - intros m ms IH IHs v [S Ss] L. change (seq_np (m :: ms)) with (n_params m + seq_np ms) in L. cbn [seq_set].
      destruct (Nat.ltb_spec (length v) (n_params m)) as [Lm|Lm].
      + specialize (IH v S Lm). destruct (set_params m v) as [m' r]. cbn in IH. now subst r.
      + destruct (set_params_ok m v S Lm) as (m' & E & _). rewrite E.
        specialize (IHs (skipn (n_params m) v) Ss ltac:(rewrite skipn_length; lia)).
        destruct (seq_set set_params ms (skipn (n_params m) v)). exact IHs.
  Qed.

  (** a module is determined by its architecture and its parameter vector *)
  Lemma tensor_ext (t t' : T) : shape t = shape t' -> data t = data t' -> t = t'.
  Proof. destruct t, t'; cbn; congruence. Qed.
  Lemma app_inj {A} (a a' c c' : list A) : length a = length a' -> a ++ c = a' ++ c' -> a = a' /\ c = c'.
  Proof. revert a'; induction a as [|x a IH]; intros [|y a']; cbn; intros L E; try lia; auto. injection E as -> E. destruct (IH a' ltac:(lia) E) as [-> ->]. auto. Qed.
  Lemma two_inj (W W' : T) bias bias' c2 : wf W -> wf W' -> bias_ok bias c2 -> shape W = shape W' -> option_map shape bias = option_map shape bias' ->
    flat_map (@data K) (W :: match bias with Some t => [t] | None => [] end) = flat_map (@data K) (W' :: match bias' with Some t => [t] | None => [] end) ->
    W = W' /\ bias = bias'.
  Proof.
    intros w w' B S Sb E. cbn in E. apply app_inj in E as [E1 E2]; [|unfold wf in *; congruence].
    split; [now apply tensor_ext|]. destruct bias as [t|], bias' as [t'|]; try discriminate; auto. cbn in *. rewrite !app_nil_r in E2.
    f_equal. apply tensor_ext; congruence.
  Qed.
  Lemma arch_len : (forall m m' : module K, arch m m' -> n_params m = n_params m') /\ (forall ms ms' : list (module K), archs ms ms' -> seq_np ms = seq_np ms').
  Proof.
    apply arch_both; auto.
    - intros l l' A. destruct l, l'; cbn in *; try discriminate; auto.
      + destruct A as [E E2]. unfold lin_n_params, dim. rewrite E. destruct bias, bias0; try discriminate; auto. cbn in E2. congruence.
      + destruct A as (-> & E & E2). unfold conv_n_params, dim. rewrite E. destruct bias, bias0; try discriminate; auto.
    - intros m m' ms ms' _ E _ Es. change (n_params m + seq_np ms = n_params m' + seq_np ms'). congruence.
  Qed.
  Lemma arch_inj : (forall m m' : module K, arch m m' -> sized m -> sized m' -> pdata m = pdata m' -> m = m') /\
    (forall ms ms' : list (module K), archs ms ms' -> sized_seq ms -> sized_seq ms' -> spdata ms = spdata ms' -> ms = ms').
  Proof.
    apply arch_both.
    - intros l l' A S S' E. f_equal. destruct l, l'; cbn in A; try discriminate; auto.
      + destruct A as [E1 E2]. destruct S as (c1 & c2 & SW & WW & B), S' as (c1' & c2' & SW' & WW' & B').
        destruct (two_inj W W0 bias bias0 c2 WW WW' B E1 E2 E) as [-> ->]. auto.
      + destruct A as (-> & E1 & E2). destruct S as (c1 & c2 & kh & kw & SW & WW & B), S' as (c1' & c2' & kh' & kw' & SW' & WW' & B').
        destruct (two_inj W W0 bias bias0 c2 WW WW' B E1 E2 E) as [-> ->]. auto.
    - auto.
    - intros h ms ms' A IH S S' E. cbn [sized] in S, S'. rewrite sized_go in S, S'. f_equal. now apply IH.
    - intros F F' A IH S S' E. f_equal. now apply IH.
    - auto.
    - intros m m' ms ms' A IH As IHs [S Ss] [S' Ss'] E. rewrite !spdata_cons in E. apply app_inj in E as [E Es].
      + f_equal; auto.
      + rewrite !pdata_len by auto. now apply arch_len.
  Qed.
  Lemma arch_refl : forall m : module K, arch m m.
  Proof.
    refine (module_ind2 (fun m => arch m m) (fun ms => archs ms ms) _ _ _ _ _ _); try (intros; constructor; auto; fail).
    intros l. constructor. destruct l; cbn; auto.
  Qed.

  Lemma set_params_same m r : sized m -> set_params m (pdata m ++ r) = (m, Ok r).
  Proof.
    intros S. pose proof (pdata_len m S) as L. destruct (set_params_ok m (pdata m ++ r) S) as (m' & E & A & S' & P).
    - rewrite app_length. lia.
    - rewrite <- L, skipn_app, skipn_all, Nat.sub_diag in E. cbn in E.
      rewrite <- L, firstn_app, firstn_all, Nat.sub_diag in P. cbn in P. rewrite app_nil_r in P.
      rewrite E. f_equal. symmetry. now apply (proj1 arch_inj).
  Qed.

  (** in terms of get_weight and set_weight *)
  Lemma leaf_params_nil (l : leaf K) : leaf_sized l -> leaf_params l = [] -> leaf_n_params l = 0.
  Proof. destruct l; cbn; auto; discriminate. Qed.
  Lemma params_nil_np : forall m : module K, params m = [] -> n_params m = 0.
  Proof.
    refine (module_ind2 (fun m => params m = [] -> n_params m = 0) (fun ms => flat_map params ms = [] -> seq_np ms = 0) _ _ _ _ _ _); auto.
    - destruct l; cbn; auto; discriminate.
    - intros m ms IH IHs E. cbn in E. apply app_eq_nil in E as [E1 E2].
      change (n_params m + seq_np ms = 0). now rewrite IH, IHs.
  Qed.
  Lemma get_weight_ok m : sized m -> params m <> [] -> get_weight m = Ok (mkT [n_params m] (pdata m)).
  Proof.
    intros S Hn. unfold get_weight. destruct (params m) eqn:E; [contradiction|]. rewrite <- E. fold (pdata m). now rewrite pdata_len.
  Qed.
  Lemma arch_params : (forall m m' : module K, arch m m' -> params m = [] -> params m' = []) /\
    (forall ms ms' : list (module K), archs ms ms' -> flat_map params ms = [] -> flat_map params ms' = []).
  Proof.
    apply arch_both; auto.
    - intros l l' A. destruct l, l'; cbn in *; try discriminate; auto.
    - intros m m' ms ms' _ IH _ IHs E. cbn in *. apply app_eq_nil in E as [E1 E2]. now rewrite IH, IHs.
  Qed.
  Lemma arch_sym : (forall m m' : module K, arch m m' -> arch m' m) /\ (forall ms ms' : list (module K), archs ms ms' -> archs ms' ms).
  Proof.
    apply arch_both; try (intros; constructor; auto; fail).
    intros l l' A. constructor. destruct l, l'; cbn in *; try discriminate; intuition.
  Qed.
  Lemma set_get (m : module K) (w : T) : sized m -> params m <> [] -> shape w = [n_params m] -> wf w ->
    exists m', set_weight m w = (m', Ok tt) /\ arch m m' /\ sized m' /\ get_weight m' = Ok w.
  Proof.
    intros S P Sw Ww. assert (L : length (data w) = n_params m) by (unfold wf in Ww; rewrite Ww, Sw; unfold numel; cbn [fold_right]; lia).
    destruct (set_params_ok m (data w) S ltac:(lia)) as (m' & E & A & S' & Pd). exists m'. unfold set_weight. rewrite E.
    split; [reflexivity|]. split; auto. split; auto. rewrite get_weight_ok; auto.
    - f_equal. apply tensor_ext; cbn; [rewrite Sw; f_equal; symmetry; now apply arch_len|]. rewrite Pd, <- L. apply firstn_all.
    - intros E0. apply P. exact (proj1 arch_params _ _ (proj1 arch_sym _ _ A) E0).
  Qed.
  Lemma get_set (m : module K) (w : T) : sized m -> get_weight m = Ok w -> set_weight m w = (m, Ok tt).
  Proof.
    intros S E. assert (P : params m <> []) by (intros E0; unfold get_weight in E; rewrite E0 in E; discriminate).
    rewrite get_weight_ok in E by auto. injection E as <-. unfold set_weight. cbn [data].
    rewrite <- (app_nil_r (pdata m)), set_params_same by auto. reflexivity.
  Qed.
  Lemma set_short (m : module K) (w : T) : sized m -> length (data w) < n_params m -> snd (set_weight m w) = Raise RuntimeError.
  Proof.
    intros S L. pose proof (set_params_short m (data w) S L) as E. unfold set_weight. destruct (set_params m (data w)) as [m' r]. cbn in *. now subst r.
  Qed.
  Lemma arch_join : forall m a c : module K, arch m a -> arch m c -> sized a -> sized c -> pdata a = pdata c -> a = c.
  Proof.
    refine (module_ind2 (fun m => forall a c, arch m a -> arch m c -> sized a -> sized c -> pdata a = pdata c -> a = c)
      (fun ms => forall a c, archs ms a -> archs ms c -> sized_seq a -> sized_seq c -> spdata a = spdata c -> a = c) _ _ _ _ _ _).
    - intros l a c A C Sa Sc P. inversion A; subst. inversion C; subst. apply (proj1 arch_inj); auto. constructor.
      destruct l, l', l'0; cbn in *; try discriminate; try congruence; intuition congruence.
    - intros cfg a c A C _ _ _. inversion A; inversion C; congruence.
    - intros h ms IH a c A C Sa Sc P. inversion A; subst. inversion C; subst. cbn [sized] in Sa, Sc. rewrite sized_go in Sa, Sc. f_equal. now apply IH.
    - intros F IH a c A C Sa Sc P. inversion A; subst. inversion C; subst. f_equal. now apply IH.
    - intros a c A C _ _ _. inversion A; inversion C; congruence.
    - intros m ms IH IHs a c A C Sa Sc P. inversion A; subst. inversion C; subst. destruct Sa as [Sa Sas], Sc as [Sc Scs].
      rewrite !spdata_cons in P. apply app_inj in P as [P Ps].
      + f_equal; auto.
      + rewrite !pdata_len by auto. erewrite <- (proj1 arch_len m m') by eassumption. erewrite <- (proj1 arch_len m m'0) by eassumption. reflexivity.
  Qed.
  Lemma set_extra (m : module K) (w r : list K) : sized m -> length w = n_params m ->
    set_weight m (mkT [length (w ++ r)] (w ++ r)) = set_weight m (mkT [length w] w).
  Proof.
    intros S L. unfold set_weight. cbn [data].
    destruct (set_params_ok m (w ++ r) S) as (m1 & E1 & A1 & S1 & P1); [rewrite app_length; lia|].
    destruct (set_params_ok m w S) as (m2 & E2 & A2 & S2 & P2); [lia|]. rewrite E1, E2. cbn [bind]. f_equal.
    apply (arch_join m); auto. rewrite P1, P2, <- L, firstn_app, Nat.sub_diag. cbn. now rewrite app_nil_r.
  Qed.

  Lemma typed_sized : (forall (m : module K) s s', typed m s s' -> sized m) /\ (forall (ms : list (module K)) s s', typed_seq ms s s' -> sized_seq ms).
  Proof.
    apply typed_both.
    - intros l s s' (_ & _ & Ty). cbn [sized]. destruct l; cbn; auto.
      + destruct s as [|c1 [|]], s' as [|c2 [|]]; try contradiction. exists c1, c2. tauto.
      + unfold conv_ok in Ty. destruct s as [|c1 [|h1 [|w1 [|]]]], s' as [|c2 [|h2 [|w2 [|]]]]; try contradiction.
        destruct (shape W) as [|c2' [|c1' [|kh [|kw [|]]]]] eqn:E; try contradiction. destruct Ty as (-> & -> & B & Ww & _).
        exists c1, c2, kh, kw. auto.
    - exact (fun _ _ _ _ => I).
    - intros ms s s' _ IH. cbn [sized]. now rewrite sized_go.
    - intros ms c c' r _ IH. cbn [sized]. now rewrite sized_go.
    - exact (fun _ _ => I).
    - intros m ms s s1 s2 _ IH _ IHs. now split.
  Qed.
  Lemma arch_typed : (forall (m : module K) s s', typed m s s' -> forall m', arch m m' -> sized m' -> typed m' s s') /\
    (forall (ms : list (module K)) s s', typed_seq ms s s' -> forall ms', archs ms ms' -> sized_seq ms' -> typed_seq ms' s s').
  Proof.
    apply typed_both.
    - intros l s s' Ty m' A S. inversion A as [l0 l' H1| | |]; subst. constructor. destruct Ty as (P1 & P2 & Ty). split; auto. split; auto.
      destruct l, l'; cbn in *; try discriminate; try (injection H1; intros; subst; auto; fail); try congruence.
      + destruct H1 as [E1 E2]. destruct s as [|c1 [|]], s' as [|c2 [|]]; try contradiction. destruct Ty as (E & Ww & B).
        destruct S as (c1' & c2' & SW & WW & B'). rewrite SW in E1. rewrite E in E1. injection E1 as -> ->. auto.
      + destruct H1 as (-> & E1 & E2). destruct S as (c1' & c2' & kh' & kw' & SW & WW & B').
        unfold conv_ok in *. destruct s as [|c1 [|h1 [|w1 [|]]]], s' as [|c2 [|h2 [|w2 [|]]]]; try contradiction.
        rewrite E1, SW in Ty. rewrite SW. destruct Ty as (-> & -> & B & Ww & R). repeat split; auto; apply R.
    - intros cfg s s' Ty m' A S. inversion A; subst. now constructor.
    - intros ms s s' Ty IH m' A S. inversion A; subst. constructor. cbn [sized] in S. rewrite sized_go in S. auto.
    - intros ms c c' r Ty IH m' A S. inversion A; subst. inversion H0; subst. constructor. cbn [sized] in S. rewrite sized_go in S. auto.
    - intros s Hs ms' A S. inversion A; subst. now constructor.
    - intros m ms s s1 s2 Ty IH Tys IHs ms' A S. inversion A; subst. destruct S as [S Ss]. econstructor; eauto.
  Qed.
  Lemma fun_of_weight (m m' : module K) (w : T) (h : st K) (x : T) :
    arch m m' -> sized m -> sized m' -> get_weight m = Ok w -> get_weight m' = Ok w -> forward m h x = forward m' h x.
  Proof.
    intros A S S' E E'. assert (m = m') as <-; auto.
    assert (P : params m <> []) by (intros E0; unfold get_weight in E; rewrite E0 in E; discriminate).
    assert (P' : params m' <> []) by (intros E0; unfold get_weight in E'; rewrite E0 in E'; discriminate).
    rewrite get_weight_ok in E, E' by auto. apply (proj1 arch_inj); auto. congruence.
  Qed.
  Lemma get_weight_none (m : module K) : params m = [] -> get_weight m = Raise RuntimeError.
  Proof. intros E. unfold get_weight. now rewrite E. Qed.
  Lemma set_typed (m m' : module K) (w : T) s s' : typed m s s' -> shape w = [n_params m] -> wf w -> set_weight m w = (m', Ok tt) -> typed m' s s'.
  Proof.
    intros Ty Sw Ww E. pose proof (proj1 typed_sized m s s' Ty) as S.
    assert (L : length (data w) = n_params m) by (unfold wf in Ww; rewrite Ww, Sw; unfold numel; cbn [fold_right]; lia).
    destruct (set_params_ok m (data w) S ltac:(lia)) as (m1 & E1 & A & S1 & _). unfold set_weight in E. rewrite E1 in E. cbn in E.
    injection E as <-. now apply (proj1 arch_typed m s s').
  Qed.
  Lemma count_weight (m : module K) (w : T) : sized m -> get_weight m = Ok w -> wf w /\ shape w = [n_params m].
  Proof.
    intros S E. assert (P : params m <> []) by (intros E0; unfold get_weight in E; rewrite E0 in E; discriminate).
    rewrite get_weight_ok in E by auto. injection E as <-. split; [|reflexivity]. unfold wf, numel. cbn [data shape fold_right].
    rewrite pdata_len by auto. lia.
  Qed.
  Lemma params_wf : forall m : module K, sized m -> Forall (fun t : T => wf t) (params m).
  Proof.
    refine (module_ind2 (fun m => sized m -> Forall (fun t : T => wf t) (params m)) (fun ms => sized_seq ms -> Forall (fun t : T => wf t) (flat_map params ms)) _ _ _ _ _ _).
    - destruct l; cbn; auto.
      + intros (c1 & c2 & SW & WW & B). destruct bias; [destruct B|]; auto.
      + intros (c1 & c2 & kh & kw & SW & WW & B). destruct bias; [destruct B|]; auto.
    - intros; constructor.
    - intros h ms IH S. cbn [sized] in S. rewrite sized_go in S. exact (IH S).
    - auto.
    - constructor.
    - intros m ms IH IHs [S Ss]. cbn. apply Forall_app. auto.
  Qed.
  Lemma count_layers (m : module K) : sized m -> n_params m = fold_right Nat.add 0 (map (fun t => numel (shape t)) (params m)).
  Proof.
    intros S. rewrite <- pdata_len by auto. unfold pdata. pose proof (params_wf m S) as P. induction P as [|t l Wt P IH]; [reflexivity|].
    cbn [flat_map map fold_right]. rewrite app_length, IH. unfold wf in Wt. now rewrite Wt.
  Qed.
End Params.

Section Widths.
  Context {K} `{CR : CRing K}.
  Notation T := (tensor K).
  Lemma weight_widths (m : module K) s s' b r (x v M : T) (h : st K) :
    typed m s s' -> 0 < b -> wf x -> shape x = b :: s -> n_params m <> 0 ->
    wf v -> shape v = [b; numel s'] -> 0 < r -> wf M -> shape M = [b; r; numel s'] ->
    exists J u U, snd (jacobian m h x None Weight) = Ok (Some J) /\ shape J = [b; numel s'; n_params m] /\
      snd (vjp m h x None v Weight) = Ok (Some u) /\ shape u = [b; n_params m] /\
      snd (mjp m h x None (Some M) Weight) = Ok (Some U) /\ shape U = [b; r; n_params m].
  Proof.
    intros Ty Hb Wx Sx Hn Wv Sv Hr WM SM.
    destruct (vjp_weight m s s' b x Ty Hb Wx Sx h h v Wv Sv) as [E _]. destruct (E Hn) as (J & E1 & E2 & E3 & E4).
    destruct (mjp_weight m s s' b x Ty Hb Wx Sx h h r M Hr WM SM) as [E' _]. destruct (E' Hn) as (J' & E1' & E2' & E3' & E4').
    eexists J, _, _. split; [exact E1|]. split; [exact E3|]. split; [exact E4|]. split; [reflexivity|]. split; [exact E4'|reflexivity].
  Qed.
End Widths.
