(** Every product evaluated at x leaves the hidden state describing the forward pass at x, whatever the
    other arguments are and whether or not it raises. *)
From Coq Require Import String Ascii List Arith ZArith Lia Bool.
From Verif Require Import Scalar Sums Tensor TensorLemmas EinsumLemmas Conv Abstract Simple LinearLayer ConvLayer PoolLayer
  Module Spec OpLemmas ReshapeLemmas Jac LeafSpec TreeBase TreeVjp.
Import ListNotations.
Local Open Scope nat_scope.
Local Open Scope list_scope.

Section State.
  Context {K} `{CR : CRing K}.
  Notation gt := (get (@n0 K _)).
  Notation T := (tensor K).
  Variable BF : @base_fwd K _.
  Variable BPF : @base_pool_fwd K _.

  Lemma coh_seq_app (c : module K -> st K -> T -> Prop) ms : forall ks fm x out, coh_seq c ms ks fm x -> coh_seq c ms ks (fm ++ out) x.
  Proof.
    induction ms as [|m ms IH]; cbn; intros ks fm x out.
    - intros [-> [r ->]]. split; auto. exists (r ++ out). reflexivity.
    - intros (k & ks' & fm' & y & -> & -> & Fy & Cm & Cs). exists k, ks', (fm' ++ out), y. cbn. auto 10.
  Qed.
  Lemma coh_set_kid F s k (x : T) : coh F k x -> coh (Skip F) (set_kid s k) x.
  Proof. intros C. cbn. auto. Qed.
  Lemma coh_Seq h (ms : list (module K)) s fm i ks x : coh (Seq h ms) s x -> (exists out, fm = st_fm s ++ out) ->
    coh_seq coh ms ks (st_fm s) x -> coh (Seq h ms) (St fm i ks) x.
  Proof. intros [H _] [out ->] C. split; auto. cbn. now apply coh_seq_app. Qed.

  (** the state after "if val is None: val = self.forward(x)" *)
  Lemma ensure_coh m s s' b st x val : typed m s s' -> 0 < b -> wf x -> shape x = b :: s -> coh m st x ->
    coh m (fst (ensure m st x val)) x.
  Proof.
    intros Ty Hb Wx Sx C. destruct val; [exact C|]. cbn [ensure]. eapply (typed_coh BF BPF); eauto.
  Qed.


  (** an operation on the children of a Sequential *)
  Definition keeps_seq {R} (ms : list (module K)) s (op : list T -> list (st K) -> nat -> list (st K) * R) : Prop :=
    forall b fma k fm ks x, 0 < b -> wf x -> shape x = b :: s -> coh_seq coh ms ks fm x -> skipn k fma = fm ->
    coh_seq coh ms (fst (op fma ks k)) fm x.
  (** forward-mode loops also append to the feature maps *)
  Definition keeps_seqf {R} (ms : list (module K)) s (op : list (st K) -> T -> list T -> list (st K) * list T * R) : Prop :=
    forall b fm0 fm ks x, 0 < b -> wf x -> shape x = b :: s -> coh_seq coh ms ks fm x ->
    coh_seq coh ms (fst (fst (op ks x fm0))) fm x /\ exists out, snd (fst (op ks x fm0)) = fm0 ++ out.
  Definition keeps_m {R} (m : module K) s (op : st K -> T -> st K * R) : Prop :=
    forall b st x, 0 < b -> wf x -> shape x = b :: s -> coh m st x -> coh m (fst (op st x)) x.

  Lemma fmaps_ok (fma fm : list T) k x y r : skipn k fma = x :: y :: r -> fmap2 true fma k = Ok (x, y) /\ skipn (S k) fma = y :: r.
  Proof. intros E. split; [eapply fmap2_ok; eauto|]. now destruct (skipn_nth _ _ _ _ E). Qed.

  Ltac open_cons C :=
    let st := fresh "st" in let ks' := fresh "ks'" in let fm' := fresh "fm'" in let y := fresh "y" in
    let Fy := fresh "Fy" in let Cm := fresh "Cm" in let Cs := fresh "Cs" in let r0 := fresh "r0" in
    destruct C as (st & ks' & fm' & y & -> & -> & Fy & Cm & Cs);
    destruct (coh_seq_head _ _ _ _ _ Cs) as [r0 ->].
  Ltac rebuild := cbn [fst snd] in *; match goal with |- coh_seq coh (_ :: _) (?k :: ?ks) (_ :: ?fm) _ => exists k, ks, fm; eexists; repeat split; eauto end.
  Ltac app0 := exists []; now rewrite app_nil_r.


  (** *** vjp *)
  Definition vjp_Q (ms : list (module K)) s : Prop := forall v,
    keeps_seq ms s (fun fma ks k => seq_vjp_in vjp true fma ms ks k v) /\
    keeps_seq ms s (fun fma ks k => seq_vjp_w vjp true fma ms ks k v).
  Lemma vjp_body ms s s' : typed_seq ms s s' -> vjp_Q ms s -> forall val v w, keeps_m (Seq true ms) s (fun st x => vjp (Seq true ms) st x val v w).
  Proof.
    intros Ty IH val v w b st x Hb Wx Sx C. pose proof (ensure_coh _ _ _ b st x val (ty_seq _ _ _ Ty) Hb Wx Sx C) as E.
    cbn [vjp]. destruct (wrt_ok w); auto. destruct (ensure _ st x val) as [s1 r1]. cbn [fst] in E.
    destruct r1; auto. destruct (IH v) as [A B].
    specialize (A b (st_fm s1) 0 (st_fm s1) (st_kids s1) x Hb Wx Sx (proj2 E) eq_refl).
    specialize (B b (st_fm s1) 0 (st_fm s1) (st_kids s1) x Hb Wx Sx (proj2 E) eq_refl).
    cbn beta in *; destruct w; [destruct seq_vjp_in as [ks r]|destruct seq_vjp_w as [ks r]|destruct seq_vjp_in as [ks r]]; cbn [fst] in *;
    (eapply coh_Seq; [exact E|app0|auto]).
  Qed.
  Lemma vjp_keeps :
    (forall m s s', typed m s s' -> forall val v w, keeps_m m s (fun st x => vjp m st x val v w)) /\
    (forall ms s s', typed_seq ms s s' -> vjp_Q ms s).
  Proof.
    apply typed_both.
    - intros l s s' Ty val v w b st x Hb Wx Sx C. exact I.
    - intros cfg s s' Ty val v w b st x Hb Wx Sx C. pose proof (ensure_coh _ _ _ b st x val (ty_pool _ _ _ Ty) Hb Wx Sx C) as E.
      cbn [vjp]. destruct w; auto. destruct (ensure _ st x val) as [s1 r1]. exact E.
    - intros ms s s' Ty IH. now apply (vjp_body ms s s').
    - intros ms c c' r Ty IH val v w b st x Hb Wx Sx C. destruct C as [Ck C].
      pose proof (fun val v => vjp_body ms _ _ Ty IH val v w b (st_kid st) x Hb Wx Sx C) as I1. remember (Seq true ms) as F. cbn [vjp].
      destruct (bind _ _) as [[[l t] vt]|]; [|split; auto]. specialize (I1 t vt). cbn beta in *; destruct (vjp F _ x t vt w). now apply coh_set_kid.
    - intros s Hs v. split; intros b fma k fm ks x Hb Wx Sx C Sk; destruct C as [-> C]; (split; [reflexivity|exact C]).
    - intros m ms s s1 s2 Tm IHm Ts IHs v. destruct (IHs v) as [Ia Ib]. split; intros b fma k fm ks x Hb Wx Sx C Sk; open_cons C;
      destruct (typed_fwd_y BF BPF _ _ _ b x y Tm Hb Wx Sx Fy) as [Wy Sy]; destruct (fmaps_ok _ fma k _ _ _ Sk) as [Ef Sk'].
      + specialize (Ia b fma (S k) (y :: r0) ks' y Hb Wy Sy Cs Sk'). cbn [seq_vjp_in kid_split].
        cbn beta in *; destruct seq_vjp_in as [ks1 r1]. cbn [fst] in Ia. destruct r1 as [v1|]; cbn [bind]; [|rebuild].
        rewrite Ef. cbn [bind]. pose proof (IHm (Some y) v1 Input b st x Hb Wx Sx Cm) as I1. cbn beta in *; destruct (vjp m st x _ v1 Input). rebuild.
      + specialize (Ib b fma (S k) (y :: r0) ks' y Hb Wy Sy Cs Sk'). cbn [seq_vjp_w kid_split].
        cbn beta in *; destruct seq_vjp_w as [ks1 r1]. cbn [fst] in Ib. destruct r1 as [[vs v1]|]; cbn [bind]; [|rebuild].
        rewrite Ef. cbn [bind]. pose proof (IHm (Some y) v1 Weight b st x Hb Wx Sx Cm) as I1. cbn beta in *; destruct (vjp m st x _ v1 Weight) as [k2 r2].
        cbn [fst] in I1. destruct r2; [|rebuild]. destruct (Nat.eqb k 0); [rebuild|].
        pose proof (IHm (Some y) v1 Input b k2 x Hb Wx Sx I1) as I2. cbn beta in *; destruct (vjp m k2 x _ v1 Input). rebuild.
  Qed.

  Lemma skip_jacobian_keeps ms c c' r b jacF st x val w : typed_seq ms (c :: r) (c' :: r) -> 0 < b -> wf x -> shape x = b :: c :: r ->
    (forall val, coh (Seq true ms) (fst (jacF (st_kid st) val)) x) -> coh (Skip (Seq true ms)) st x ->
    coh (Skip (Seq true ms)) (fst (skip_jacobian (Seq true ms) jacF st x val w)) x.
  Proof.
    intros Ty Hb Wx Sx I1 C. unfold skip_jacobian. specialize (I1 val). cbn beta in *. destruct (jacF (st_kid st) val) as [k r1]. cbn [fst] in I1.
    apply (coh_set_kid _ st) in I1. destruct (bind r1 _) as [[[jac b0] l]|]; auto.
    pose proof (ensure_coh _ _ _ b _ x val (ty_skip _ _ _ _ Ty) Hb Wx Sx I1) as E. destruct (ensure _ _ x val). exact E.
  Qed.

  (** *** mjp *)
  Definition mjp_Q (ms : list (module K)) s : Prop := forall v,
    keeps_seq ms s (fun fma ks k => seq_mjp_in mjp true fma ms ks k v) /\
    keeps_seq ms s (fun fma ks k => seq_mjp_w mjp true fma ms ks k v).
  Lemma mjp_body ms s s' : typed_seq ms s s' -> mjp_Q ms s -> forall val v w, keeps_m (Seq true ms) s (fun st x => mjp (Seq true ms) st x val v w).
  Proof.
    intros Ty IH val v w b st x Hb Wx Sx C. pose proof (ensure_coh _ _ _ b st x val (ty_seq _ _ _ Ty) Hb Wx Sx C) as E.
    cbn [mjp]. destruct (wrt_ok w); auto. destruct (ensure _ st x val) as [s1 r1]. cbn [fst] in E.
    destruct (bind r1 _) as [mt|]; auto. destruct (IH (Some mt)) as [A B].
    specialize (A b (st_fm s1) 0 (st_fm s1) (st_kids s1) x Hb Wx Sx (proj2 E) eq_refl).
    specialize (B b (st_fm s1) 0 (st_fm s1) (st_kids s1) x Hb Wx Sx (proj2 E) eq_refl).
    cbn beta in *; destruct w; [destruct seq_mjp_in as [ks r]|destruct seq_mjp_w as [ks r]|destruct seq_mjp_in as [ks r]]; cbn [fst] in *;
    (eapply coh_Seq; [exact E|app0|auto]).
  Qed.
  Lemma mjp_keeps :
    (forall m s s', typed m s s' -> forall val v w, keeps_m m s (fun st x => mjp m st x val v w)) /\
    (forall ms s s', typed_seq ms s s' -> mjp_Q ms s).
  Proof.
    apply typed_both.
    - intros l s s' Ty val v w b st x Hb Wx Sx C. exact I.
    - intros cfg s s' Ty val v w b st x Hb Wx Sx C. pose proof (ensure_coh _ _ _ b st x val (ty_pool _ _ _ Ty) Hb Wx Sx C) as E.
      cbn [mjp]. unfold maxpool_jacobian. destruct v; destruct w; auto; destruct (ensure _ st x val) as [s1 r1]; exact E.
    - intros ms s s' Ty IH. now apply (mjp_body ms s s').
    - intros ms c c' r Ty IH val v w b st x Hb Wx Sx C. destruct C as [Ck C].
      pose proof (fun val v => mjp_body ms _ _ Ty IH val v w b (st_kid st) x Hb Wx Sx C) as I1. remember (Seq true ms) as F. cbn [mjp].
      destruct v as [mt|].
      + destruct (bind _ _) as [[[l t] vt]|]; [|split; auto]. specialize (I1 t (Some vt)). cbn beta in *; destruct (mjp F _ x t _ w). now apply coh_set_kid.
      + subst F. apply (skip_jacobian_keeps ms c c' r b); auto. split; auto.
    - intros s Hs v. split; intros b fma k fm ks x Hb Wx Sx C Sk; destruct C as [-> C]; (split; [reflexivity|exact C]).
    - intros m ms s s1 s2 Tm IHm Ts IHs v. destruct (IHs v) as [Ia Ib]. split; intros b fma k fm ks x Hb Wx Sx C Sk; open_cons C;
      destruct (typed_fwd_y BF BPF _ _ _ b x y Tm Hb Wx Sx Fy) as [Wy Sy]; destruct (fmaps_ok _ fma k _ _ _ Sk) as [Ef Sk'].
      + specialize (Ia b fma (S k) (y :: r0) ks' y Hb Wy Sy Cs Sk'). cbn [seq_mjp_in kid_split].
        cbn beta in *; destruct seq_mjp_in as [ks1 r1]. cbn [fst] in Ia. destruct r1 as [v1|]; cbn [bind]; [|rebuild].
        rewrite Ef. cbn [bind]. pose proof (IHm (Some y) v1 Input b st x Hb Wx Sx Cm) as I1. cbn beta in *; destruct (mjp m st x _ v1 Input). rebuild.
      + specialize (Ib b fma (S k) (y :: r0) ks' y Hb Wy Sy Cs Sk'). cbn [seq_mjp_w kid_split].
        cbn beta in *; destruct seq_mjp_w as [ks1 r1]. cbn [fst] in Ib. destruct r1 as [[vs v1]|]; cbn [bind]; [|rebuild].
        rewrite Ef. cbn [bind]. pose proof (IHm (Some y) v1 Weight b st x Hb Wx Sx Cm) as I1. cbn beta in *; destruct (mjp m st x _ v1 Weight) as [k2 r2].
        cbn [fst] in I1. destruct r2; [|rebuild]. destruct (Nat.eqb k 0); [rebuild|].
        pose proof (IHm (Some y) v1 Input b k2 x Hb Wx Sx I1) as I2. cbn beta in *; destruct (mjp m k2 x _ v1 Input). rebuild.
  Qed.

  Lemma jacobian_keeps m s s' : typed m s s' -> forall val w, keeps_m m s (fun st x => jacobian m st x val w).
  Proof.
    intros Ty val w. pose proof (proj1 mjp_keeps m s s' Ty val None w) as Km. destruct m as [l|cfg|h ms|F]; try exact Km.
  Qed.

  (** *** jvp *)
  Definition jvp_Q (ms : list (module K)) s : Prop :=
    (forall v, keeps_seqf ms s (fun ks x fm => seq_jvp_in jvp true ms ks x fm v)) /\
    (forall v p acc, keeps_seqf ms s (fun ks x fm => seq_jvp_w jvp true ms ks x fm v p acc)).
  Lemma jvp_body ms s s' : typed_seq ms s s' -> jvp_Q ms s -> forall val v w, keeps_m (Seq true ms) s (fun st x => jvp (Seq true ms) st x val v w).
  Proof.
    intros Ty [IA IB] val v w b st x Hb Wx Sx C. cbn [jvp].
    pose proof (IA v b (st_fm st) (st_fm st) (st_kids st) x Hb Wx Sx (proj2 C)) as A.
    pose proof (IB v 0 None b (st_fm st) (st_fm st) (st_kids st) x Hb Wx Sx (proj2 C)) as B.
    cbn beta in *; destruct w; auto; [destruct seq_jvp_in as [[ks fm] r]|destruct seq_jvp_w as [[ks fm] r]]; cbn [fst snd] in *;
    (eapply coh_Seq; [exact C|tauto|tauto]).
  Qed.
  Lemma jvp_keeps :
    (forall m s s', typed m s s' -> forall val v w, keeps_m m s (fun st x => jvp m st x val v w)) /\
    (forall ms s s', typed_seq ms s s' -> jvp_Q ms s).
  Proof.
    apply typed_both.
    - intros l s s' Ty val v w b st x Hb Wx Sx C. exact I.
    - intros cfg s s' Ty val v w b st x Hb Wx Sx C. exact C.
    - intros ms s s' Ty IH. now apply (jvp_body ms s s').
    - intros ms c c' r Ty IH val v w b st x Hb Wx Sx C. destruct C as [Ck C].
      pose proof (fun val => jvp_body ms _ _ Ty IH val v w b (st_kid st) x Hb Wx Sx C) as I1. remember (Seq true ms) as F. cbn [jvp].
      destruct (bind _ _) as [[[b0 l] t]|]; [|split; auto]. specialize (I1 t). cbn beta in *; destruct (jvp F _ x t v w). now apply coh_set_kid.
    - intros s Hs. split; intros; intros b fm0 fm ks x Hb Wx Sx C; destruct C as [-> C]; (split; [split; [reflexivity|exact C]|app0]).
    - intros m ms s s1 s2 Tm IHm Ts [Ia Ib]. split.
      + intros v b fm0 fm ks x Hb Wx Sx C. open_cons C. destruct (typed_fwd_y BF BPF _ _ _ b x y Tm Hb Wx Sx Fy) as [Wy Sy].
        cbn [seq_jvp_in kid_split]. pose proof (typed_coh BF BPF m s s1 Tm b x st Hb Wx Sx) as C1. rewrite forward_eta, Fy.
        pose proof (IHm (Some y) v Input b (fst (forward m st x)) x Hb Wx Sx C1) as I1. cbn beta in *; destruct (jvp m _ x _ v Input) as [k1 r1]. cbn [fst] in I1.
        destruct (bind r1 _) as [v1|]; [|cbn [fst snd]; split; [rebuild|exists [y]; reflexivity]].
        destruct (Ia v1 b (hook_push true fm0 y) (y :: r0) ks' y Hb Wy Sy Cs) as [I2 [out I3]].
        cbn beta in *; destruct (seq_jvp_in jvp true ms ks' y _ v1) as [[ks2 fm2] r2]. cbn [fst snd] in *. split; [rebuild|].
        exists (y :: out). rewrite I3. cbn [hook_push]. now rewrite <- app_assoc.
      + intros v p acc b fm0 fm ks x Hb Wx Sx C. open_cons C. destruct (typed_fwd_y BF BPF _ _ _ b x y Tm Hb Wx Sx Fy) as [Wy Sy].
        cbn [seq_jvp_w kid_split]. pose proof (typed_coh BF BPF m s s1 Tm b x st Hb Wx Sx) as C1. rewrite forward_eta, Fy.
        set (call1 := match acc with None => (fst (forward m st x), Ok None) | Some a => jvp m (fst (forward m st x)) x (Some y) a Input end).
        assert (I0 : coh m (fst call1) x).
        { unfold call1. destruct acc as [a|]; auto. now apply (IHm (Some y) a Input b). }
        destruct call1 as [k1 r1]. cbn [fst] in I0. destruct (bind r1 _) as [[acc1 vp]|]; [|cbn [fst snd]; split; [rebuild|exists [y]; reflexivity]].
        pose proof (IHm (Some y) vp Weight b k1 x Hb Wx Sx I0) as I1. cbn beta in *; destruct (jvp m k1 x _ vp Weight) as [k2 r2]. cbn [fst] in I1.
        destruct (bind r2 _) as [acc2|]; [|cbn [fst snd]; split; [rebuild|exists [y]; reflexivity]].
        destruct (Ib v (p + n_params m) acc2 b (hook_push true fm0 y) (y :: r0) ks' y Hb Wy Sy Cs) as [I2 [out I3]].
        cbn beta in *; destruct (seq_jvp_w jvp true ms ks' y _ v _ acc2) as [[ks2 fm2] r3]. cbn [fst snd] in *. split; [rebuild|].
        exists (y :: out). rewrite I3. cbn [hook_push]. now rewrite <- app_assoc.
  Qed.

  (** *** jmp *)
  Definition jmp_Q (ms : list (module K)) s : Prop :=
    (forall v, keeps_seqf ms s (fun ks x fm => seq_jmp_in jmp true ms ks x fm v)) /\
    (forall v p acc, keeps_seqf ms s (fun ks x fm => seq_jmp_w jmp true ms ks x fm v p acc)).
  Lemma jmp_body ms s s' : typed_seq ms s s' -> jmp_Q ms s -> forall val v w, keeps_m (Seq true ms) s (fun st x => jmp (Seq true ms) st x val v w).
  Proof.
    intros Ty [IA IB] val v w b st x Hb Wx Sx C. cbn [jmp].
    destruct (wrt_ok w) eqn:Ew; auto. destruct v as [v|]; [|now apply (jacobian_keeps _ _ _ (ty_seq _ _ _ Ty) val w b)].
    pose proof (IA (Some v) b (st_fm st) (st_fm st) (st_kids st) x Hb Wx Sx (proj2 C)) as A.
    pose proof (IB v 0 None b (st_fm st) (st_fm st) (st_kids st) x Hb Wx Sx (proj2 C)) as B.
    cbn beta in *; destruct w; try discriminate; [destruct seq_jmp_in as [[ks fm] r]|destruct seq_jmp_w as [[ks fm] r]]; cbn [fst snd] in *;
    (eapply coh_Seq; [exact C|tauto|tauto]).
  Qed.
  Lemma jmp_keeps :
    (forall m s s', typed m s s' -> forall val v w, keeps_m m s (fun st x => jmp m st x val v w)) /\
    (forall ms s s', typed_seq ms s s' -> jmp_Q ms s).
  Proof.
    apply typed_both.
    - intros l s s' Ty val v w b st x Hb Wx Sx C. exact I.
    - intros cfg s s' Ty val v w b st x Hb Wx Sx C. pose proof (ensure_coh _ _ _ b st x val (ty_pool _ _ _ Ty) Hb Wx Sx C) as E.
      cbn [jmp]. unfold maxpool_jacobian. destruct v; destruct w; auto; destruct (ensure _ st x val) as [s1 r1]; exact E.
    - intros ms s s' Ty IH. now apply (jmp_body ms s s').
    - intros ms c c' r Ty IH val v w b st x Hb Wx Sx C. destruct C as [Ck C].
      pose proof (fun val => jmp_body ms _ _ Ty IH val v w b (st_kid st) x Hb Wx Sx C) as I1. destruct v as [v|].
      2:{ apply (jacobian_keeps _ _ _ (ty_skip _ _ _ _ Ty) val w b); auto. split; auto. }
      remember (Seq true ms) as F. cbn [jmp].
      destruct (bind _ _) as [[[b0 l] t]|]; [|split; auto]. specialize (I1 t). cbn beta in *; destruct (jmp F _ x t (Some v) w). now apply coh_set_kid.
    - intros s Hs. split; intros; intros b fm0 fm ks x Hb Wx Sx C; destruct C as [-> C]; (split; [split; [reflexivity|exact C]|app0]).
    - intros m ms s s1 s2 Tm IHm Ts [Ia Ib]. split.
      + intros v b fm0 fm ks x Hb Wx Sx C. open_cons C. destruct (typed_fwd_y BF BPF _ _ _ b x y Tm Hb Wx Sx Fy) as [Wy Sy].
        cbn [seq_jmp_in kid_split]. pose proof (typed_coh BF BPF m s s1 Tm b x st Hb Wx Sx) as C1. rewrite forward_eta, Fy.
        pose proof (IHm (Some y) v Input b (fst (forward m st x)) x Hb Wx Sx C1) as I1. cbn beta in *; destruct (jmp m _ x _ v Input) as [k1 r1]. cbn [fst] in I1.
        destruct r1 as [v1|]; [|cbn [fst snd]; split; [rebuild|exists [y]; reflexivity]].
        destruct (Ia v1 b (hook_push true fm0 y) (y :: r0) ks' y Hb Wy Sy Cs) as [I2 [out I3]].
        cbn beta in *; destruct (seq_jmp_in jmp true ms ks' y _ v1) as [[ks2 fm2] r2]. cbn [fst snd] in *. split; [rebuild|].
        exists (y :: out). rewrite I3. cbn [hook_push]. now rewrite <- app_assoc.
      + intros v p acc b fm0 fm ks x Hb Wx Sx C. open_cons C. destruct (typed_fwd_y BF BPF _ _ _ b x y Tm Hb Wx Sx Fy) as [Wy Sy].
        cbn [seq_jmp_w kid_split]. pose proof (typed_coh BF BPF m s s1 Tm b x st Hb Wx Sx) as C1. rewrite forward_eta, Fy.
        set (call1 := match acc with None => (fst (forward m st x), Ok None) | Some a => jmp m (fst (forward m st x)) x (Some y) (Some a) Input end).
        assert (I0 : coh m (fst call1) x).
        { unfold call1. destruct acc as [a|]; auto. now apply (IHm (Some y) (Some a) Input b). }
        destruct call1 as [k1 r1]. cbn [fst] in I0. destruct (bind r1 _) as [[acc1 vp]|]; [|cbn [fst snd]; split; [rebuild|exists [y]; reflexivity]].
        pose proof (IHm (Some y) (Some vp) Weight b k1 x Hb Wx Sx I0) as I1. cbn beta in *; destruct (jmp m k1 x _ (Some vp) Weight) as [k2 r2]. cbn [fst] in I1.
        destruct (bind r2 _) as [acc2|]; [|cbn [fst snd]; split; [rebuild|exists [y]; reflexivity]].
        destruct (Ib v (p + n_params m) acc2 b (hook_push true fm0 y) (y :: r0) ks' y Hb Wy Sy Cs) as [I2 [out I3]].
        cbn beta in *; destruct (seq_jmp_w jmp true ms ks' y _ v _ acc2) as [[ks2 fm2] r3]. cbn [fst snd] in *. split; [rebuild|].
        exists (y :: out). rewrite I3. cbn [hook_push]. now rewrite <- app_assoc.
  Qed.

  (** *** jmjTp *)
  Definition jmjTp_Q (ms : list (module K)) s : Prop := forall fd td db,
    (forall v, keeps_seq ms s (fun fma ks k => seq_jmjTp_in jmjTp true fma ms ks k v fd td db)) /\
    (forall bs acc, keeps_seq ms s (fun fma ks k => seq_jmjTp_w jmjTp true fma ms ks k bs acc fd td db)).
  Lemma jmjTp_body ms s s' : typed_seq ms s s' -> jmjTp_Q ms s -> forall val v w fd td db,
    keeps_m (Seq true ms) s (fun st x => jmjTp (Seq true ms) st x val v w fd td db).
  Proof.
    intros Ty IH val v w fd td db b st x Hb Wx Sx C. pose proof (ensure_coh _ _ _ b st x val (ty_seq _ _ _ Ty) Hb Wx Sx C) as E.
    cbn [jmjTp]. destruct (db_ok fd td db); auto. destruct (ensure _ st x val) as [s1 r1]. cbn [fst] in E.
    destruct r1; auto. destruct w; auto.
    - destruct (match v with VNone => _ | _ => _ end) as [mt fd1]. destruct (IH fd1 td db) as [A _].
      specialize (A mt b (st_fm s1) 0 (st_fm s1) (st_kids s1) x Hb Wx Sx (proj2 E) eq_refl). cbn beta in *.
      destruct seq_jmjTp_in as [ks r]; cbn [fst] in *. eapply coh_Seq; [exact E|app0|auto].
    - destruct (bind _ _) as [[bs fd1]|]; auto. destruct (IH fd1 td db) as [_ B].
      specialize (B bs VNone b (st_fm s1) 0 (st_fm s1) (st_kids s1) x Hb Wx Sx (proj2 E) eq_refl). cbn beta in *.
      destruct seq_jmjTp_w as [ks r]; cbn [fst] in *. eapply coh_Seq; [exact E|app0|auto].
  Qed.
  Lemma jmjTp_keeps :
    (forall m s s', typed m s s' -> forall val v w fd td db, keeps_m m s (fun st x => jmjTp m st x val v w fd td db)) /\
    (forall ms s s', typed_seq ms s s' -> jmjTp_Q ms s).
  Proof.
    apply typed_both.
    - intros l s s' Ty val v w fd td db b st x Hb Wx Sx C. exact I.
    - intros cfg s s' Ty val v w fd td db b st x Hb Wx Sx C. pose proof (ensure_coh _ _ _ b st x val (ty_pool _ _ _ Ty) Hb Wx Sx C) as E.
      cbn [jmjTp]. destruct (ensure _ st x val) as [s1 r1]. exact E.
    - intros ms s s' Ty IH. now apply (jmjTp_body ms s s').
    - intros ms c c' r Ty IH val v w fd td db b st x Hb Wx Sx C.
      pose proof (ensure_coh _ _ _ b st x val (ty_skip _ _ _ _ Ty) Hb Wx Sx C) as E.
      pose proof (fun val st C => jmjTp_body ms _ _ Ty IH val v w fd td db b st x Hb Wx Sx C) as I1.
      pose proof (fun val v w st C => proj1 jmp_keeps _ _ _ (ty_seq _ _ _ Ty) val v w b st x Hb Wx Sx C) as I2.
      remember (Seq true ms) as F. cbn [jmjTp]. destruct (db_ok fd td db); auto. destruct (ensure _ st x val) as [s1 r1]. cbn [fst] in E.
      destruct (bind r1 _) as [[[[b0 l1] l2] t]|]; auto. specialize (I1 (Some t) (st_kid s1) (proj2 E)). cbn beta in *.
      destruct (jmjTp F _ x _ v w fd td db) as [k r2]. cbn [fst] in I1. destruct r2 as [j|]; [|now apply coh_set_kid].
      destruct w; try (now apply coh_set_kid). destruct td; [now apply coh_set_kid|].
      destruct (bind (to_tensor v) _) as [mt|]; [|now apply coh_set_kid].
      pose proof (I2 (Some t) (Some mt) Input _ I1) as I3. change (st_kid (set_kid s1 k)) with k. cbn beta in *.
      destruct (jmp F k x (Some t) (Some mt) Input) as [k3 r3]. cbn [fst] in I3. destruct (bind r3 _) as [jm|]; [|now apply coh_set_kid].
      destruct fd; [now apply coh_set_kid|]. destruct (transpose12 n0 mt) as [mtT|]; [|now apply coh_set_kid].
      pose proof (I2 (Some t) (Some mtT) Input _ I3) as I4. change (st_kid (set_kid (set_kid s1 k) k3)) with k3. cbn beta in *.
      destruct (jmp F k3 x (Some t) (Some mtT) Input) as [k4 r4]. now apply coh_set_kid.
    - intros s Hs fd td db. split; intros; intros b fma k fm ks x Hb Wx Sx C Sk; destruct C as [-> C]; (split; [reflexivity|exact C]).
    - intros m ms s s1 s2 Tm IHm Ts IHs fd td db. destruct (IHs fd td db) as [Ia Ib].
      split; intros; intros b fma k fm ks x Hb Wx Sx C Sk; open_cons C;
      destruct (typed_fwd_y BF BPF _ _ _ b x y Tm Hb Wx Sx Fy) as [Wy Sy]; destruct (fmaps_ok _ fma k _ _ _ Sk) as [Ef Sk'].
      + cbn [seq_jmjTp_in kid_split]. rewrite Ef. set (td' := match ms with [] => td | _ => db end). set (fd' := if Nat.eqb k 0 then fd else db).
        pose proof (IHm (Some y) v Input fd' td' db b st x Hb Wx Sx Cm) as I1. cbn beta in *. destruct (jmjTp m st x _ v Input fd' td' db) as [k1 r1].
        cbn [fst] in I1. destruct r1 as [v1|]; [|rebuild].
        specialize (Ia v1 b fma (S k) (y :: r0) ks' y Hb Wy Sy Cs Sk'). cbn beta in *. destruct seq_jmjTp_in as [ks1 r1]. rebuild.
      + cbn [seq_jmjTp_w kid_split]. rewrite Ef. set (td' := match ms with [] => td | _ => db end).
        match goal with |- context [match ?c with (s, r) => match r with _ => _ end end] => set (call1 := c) end.
        assert (I0 : coh m (fst call1) x) by (unfold call1; destruct acc; auto; now apply (IHm (Some y) _ Input db td' db b)).
        destruct call1 as [k1 r1]. cbn [fst] in I0. destruct r1 as [acc1|]; [|rebuild].
        destruct (Nat.eqb (n_params m) 0).
        * specialize (Ib bs acc1 b fma (S k) (y :: r0) ks' y Hb Wy Sy Cs Sk'). cbn beta in *. destruct seq_jmjTp_w as [ks1 r1]. rebuild.
        * cbn [bind]. destruct bs as [|b1 bs]; [rebuild|].
          pose proof (IHm (Some y) b1 Weight fd td' db b k1 x Hb Wx Sx I0) as I1. cbn beta in *.
          destruct (jmjTp m k1 x _ b1 Weight fd td' db) as [k2 r2]. cbn [fst] in I1. destruct (bind r2 _) as [acc2|]; [|rebuild].
          specialize (Ib bs (of_opt acc2) b fma (S k) (y :: r0) ks' y Hb Wy Sy Cs Sk'). cbn beta in *. destruct seq_jmjTp_w as [ks1 r1]. rebuild.
  Qed.

  (** *** jTmjp *)
  Definition jTmjp_Q (ms : list (module K)) s : Prop := forall fd td db,
    (forall v, keeps_seq ms s (fun fma ks k => seq_jTmjp_in jTmjp true fma ms ks k v fd td db)) /\
    (forall v, keeps_seq ms s (fun fma ks k => seq_jTmjp_w jTmjp true fma ms ks k v fd td db)).
  Lemma jTmjp_body ms s s' : typed_seq ms s s' -> jTmjp_Q ms s -> forall val v w fd td db,
    keeps_m (Seq true ms) s (fun st x => jTmjp (Seq true ms) st x val v w fd td db).
  Proof.
    intros Ty IH val v w fd td db b st x Hb Wx Sx C. pose proof (ensure_coh _ _ _ b st x val (ty_seq _ _ _ Ty) Hb Wx Sx C) as E.
    cbn [jTmjp]. destruct (db_ok fd td db); auto. destruct (ensure _ st x val) as [s1 r1]. cbn [fst] in E.
    destruct (bind r1 _) as [[mt fd1]|]; auto. destruct (IH fd1 td db) as [A B].
    specialize (A mt b (st_fm s1) 0 (st_fm s1) (st_kids s1) x Hb Wx Sx (proj2 E) eq_refl).
    specialize (B mt b (st_fm s1) 0 (st_fm s1) (st_kids s1) x Hb Wx Sx (proj2 E) eq_refl). cbn beta in *.
    destruct w; [destruct seq_jTmjp_in as [ks r]|destruct seq_jTmjp_w as [ks r]|destruct seq_jTmjp_in as [ks r]]; cbn [fst] in *;
    (eapply coh_Seq; [exact E|app0|auto]).
  Qed.
  Lemma jTmjp_keeps :
    (forall m s s', typed m s s' -> forall val v w fd td db, keeps_m m s (fun st x => jTmjp m st x val v w fd td db)) /\
    (forall ms s s', typed_seq ms s s' -> jTmjp_Q ms s).
  Proof.
    apply typed_both.
    - intros l s s' Ty val v w fd td db b st x Hb Wx Sx C. exact I.
    - intros cfg s s' Ty val v w fd td db b st x Hb Wx Sx C. pose proof (ensure_coh _ _ _ b st x val (ty_pool _ _ _ Ty) Hb Wx Sx C) as E.
      cbn [jTmjp]. destruct (ensure _ st x val) as [s1 r1]. exact E.
    - intros ms s s' Ty IH. now apply (jTmjp_body ms s s').
    - intros ms c c' r Ty IH val v w fd td db b st x Hb Wx Sx C.
      pose proof (ensure_coh _ _ _ b st x val (ty_skip _ _ _ _ Ty) Hb Wx Sx C) as E.
      pose proof (fun val v fd st C => jTmjp_body ms _ _ Ty IH val v w fd td db b st x Hb Wx Sx C) as I1.
      pose proof (fun val v w st C => proj1 mjp_keeps _ _ _ (ty_seq _ _ _ Ty) val v w b st x Hb Wx Sx C) as I2.
      remember (Seq true ms) as F. cbn [jTmjp]. destruct (db_ok fd td db); auto. destruct (ensure _ st x val) as [s1 r1]. cbn [fst] in E.
      destruct (bind r1 _) as [[[[[mt fd1] l] t] sub]|]; auto. specialize (I1 (Some t) (VT sub) fd1 (st_kid s1) (proj2 E)). cbn beta in *.
      destruct (jTmjp F _ x _ _ w fd1 td db) as [k r2]. cbn [fst] in I1. destruct r2 as [j|]; [|now apply coh_set_kid].
      destruct w; try (now apply coh_set_kid). destruct fd1; [now apply coh_set_kid|].
      destruct (bind (slice n0 1 0 l mt) _) as [m12|]; [|now apply coh_set_kid].
      pose proof (I2 (Some t) (Some m12) Input _ I1) as I3. change (st_kid (set_kid s1 k)) with k. cbn beta in *.
      destruct (mjp F k x (Some t) (Some m12) Input) as [k3 r3]. cbn [fst] in I3. destruct (bind r3 _) as [[mj m21]|]; [|now apply coh_set_kid].
      pose proof (I2 (Some t) (Some m21) Input _ I3) as I4. change (st_kid (set_kid (set_kid s1 k) k3)) with k3. cbn beta in *.
      destruct (mjp F k3 x (Some t) (Some m21) Input) as [k4 r4]. now apply coh_set_kid.
    - intros s Hs fd td db. split; intros; intros b fma k fm ks x Hb Wx Sx C Sk; destruct C as [-> C]; (split; [reflexivity|exact C]).
    - intros m ms s s1 s2 Tm IHm Ts IHs fd td db. destruct (IHs fd td db) as [Ia Ib].
      split; intros; intros b fma k fm ks x Hb Wx Sx C Sk; open_cons C;
      destruct (typed_fwd_y BF BPF _ _ _ b x y Tm Hb Wx Sx Fy) as [Wy Sy]; destruct (fmaps_ok _ fma k _ _ _ Sk) as [Ef Sk'].
      + cbn [seq_jTmjp_in kid_split]. set (fd' := match ms with [] => fd | _ => db end). set (td' := if Nat.eqb k 0 then td else db).
        specialize (Ia v b fma (S k) (y :: r0) ks' y Hb Wy Sy Cs Sk'). cbn beta in *. destruct seq_jTmjp_in as [ks1 r1].
        cbn [fst] in Ia. destruct r1 as [v1|]; cbn [bind]; [|rebuild]. rewrite Ef. cbn [bind].
        pose proof (IHm (Some y) v1 Input fd' td' db b st x Hb Wx Sx Cm) as I1. cbn beta in *. destruct (jTmjp m st x _ v1 Input fd' td' db) as [k1 r1].
        rebuild.
      + cbn [seq_jTmjp_w kid_split]. set (fd' := match ms with [] => fd | _ => db end).
        specialize (Ib v b fma (S k) (y :: r0) ks' y Hb Wy Sy Cs Sk'). cbn beta in *. destruct seq_jTmjp_w as [ks1 r1].
        cbn [fst] in Ib. destruct r1 as [[vs v1]|]; cbn [bind]; [|rebuild]. rewrite Ef. cbn [bind].
        pose proof (IHm (Some y) v1 Weight fd' td db b st x Hb Wx Sx Cm) as I1. cbn beta in *.
        destruct (jTmjp m st x _ v1 Weight fd' td db) as [k2 r2].
        cbn [fst] in I1. destruct r2; [|rebuild]. destruct (Nat.eqb k 0); [rebuild|].
        pose proof (IHm (Some y) v1 Input fd' db db b k2 x Hb Wx Sx I1) as I2. cbn beta in *. destruct (jTmjp m k2 x _ v1 Input fd' db db). rebuild.
  Qed.
End State.
