(** convert_to_nnj and invert_block_diagonal. *)
From Coq Require Import List Arith Lia Bool Reals Lra.
From Verif Require Import Scalar Sums Tensor TensorLemmas Conv Abstract Simple LinearLayer ConvLayer PoolLayer Module Spec Domain TreeBase Utils UtilSpec Calc.
Import ListNotations.
Local Open Scope nat_scope.
Local Open Scope list_scope.

Section Convert.
  Context {K} `{Num K}.
  Notation T := (tensor K).
  Lemma convert_layer_plain (l : tlayer K) : plain l ->
    exists m, convert_layer l = Ok m /\ params m = t_params l /\ forall x, fwd m x = t_forward l x.
  Proof.
    destruct l as [W b|cfg W b|cfg|a| |sn sd|ls|f]; cbn [plain convert_layer t_params]; intros P; try contradiction.
    - destruct b as [t|]; [|congruence]. eexists. split; [reflexivity|]. split; reflexivity.
    - destruct P as (Nb & A1 & A2 & A3 & A4 & A5). destruct b as [t|]; [|congruence]. eexists. split; [reflexivity|]. split; [reflexivity|]. intros x.
      destruct cfg as [c1 c2 c3 c4 c5 c6]. cbn in A1, A2, A3, A4, A5. subst. destruct c6; reflexivity.
    - destruct P as (A1 & A2 & A3 & A4). eexists. split; [reflexivity|]. split; [reflexivity|]. intros x.
      destruct cfg as [c1 c2 c3 c4 c5]. cbn in A1, A2, A3, A4. subst. unfold fwd. cbn [forward t_forward]. unfold default_pool. cbn [pk].
      match goal with |- context [max_pool2d ?c x] => destruct (max_pool2d c x) as [[v i]|e] end; reflexivity.
    - eexists. split; [reflexivity|]. split; [reflexivity|]. intros x. destruct a; try reflexivity. destruct P as [-> ->]. reflexivity.
    - eexists. split; [reflexivity|]. split; reflexivity.
  Qed.

  Lemma t_fold_raise (ls : list (tlayer K)) e : fold_left (fun r l => x <- r ;; t_forward l x) ls (Raise e) = Raise e.
  Proof. now induction ls. Qed.
  Lemma t_seq_cons l (ls : list (tlayer K)) x : t_seq_forward (l :: ls) x = (y <- t_forward l x ;; t_seq_forward ls y).
  Proof. unfold t_seq_forward. cbn. destruct t_forward; auto. cbn. apply t_fold_raise. Qed.

  Lemma convert_layer_raise (l : tlayer K) e : convert_layer l = Raise e -> e = AttributeError.
  Proof. destruct l as [? []|? ? []| | | | | |]; cbn; congruence. Qed.
  Lemma convert_raise (ls : list (tlayer K)) l e : In l ls -> convert_layer l = Raise e -> convert_to_nnj ls = Raise AttributeError.
  Proof.
    intros I E. unfold convert_to_nnj. enough (X : mapM convert_layer ls = Raise AttributeError) by now rewrite X.
    induction ls as [|a ls IH]; [destruct I|]. cbn. destruct I as [->|I].
    - rewrite E. cbn. now rewrite (convert_layer_raise l e E).
    - destruct (convert_layer a) as [m|e'] eqn:Ea; cbn.
      + now rewrite IH.
      + now rewrite (convert_layer_raise _ _ Ea).
  Qed.
End Convert.

Section ConvertSeq.
  Context {K} `{CR : CRing K}.
  Lemma convert_plain (ls : list (tlayer K)) : Forall plain ls ->
    exists m, convert_to_nnj ls = Ok m /\ params m = flat_map t_params ls /\ forall s x, snd (forward m s x) = t_seq_forward ls x.
  Proof.
    intros P.
    assert (X : exists ms, mapM convert_layer ls = Ok ms /\ flat_map params ms = flat_map t_params ls /\ forall x, fwd_seq ms x = t_seq_forward ls x).
    { induction P as [|l ls Pl P IH].
      - exists []. split; [reflexivity|]. split; reflexivity.
      - destruct IH as (ms & E & Pm & Fm). destruct (convert_layer_plain l Pl) as (m & El & Pl' & Fl).
        exists (m :: ms). cbn [mapM]. rewrite El. cbn [bind]. rewrite E. cbn [bind]. split; [reflexivity|]. split.
        + cbn. now rewrite Pl', Pm.
        + intros x. rewrite t_seq_cons. cbn [fwd_seq]. rewrite Fl. destruct t_forward; auto. cbn. apply Fm. }
    destruct X as (ms & E & Pm & Fm). exists (Seq true ms). unfold convert_to_nnj. rewrite E. cbn [bind]. split; [reflexivity|].
    split; [exact Pm|]. intros s x. now rewrite forward_pure, fwd_Seq.
  Qed.
  (** a nested Sequential is replaced by the identity *)
  Lemma convert_nested (ls : list (tlayer K)) : exists m, convert_to_nnj [TSequential ls] = Ok m /\ params m = [] /\ forall s x, snd (forward m s x) = Ok x.
  Proof. eexists. split; [reflexivity|]. split; [reflexivity|]. intros s x. now rewrite forward_pure, fwd_Seq. Qed.
  Lemma convert_upsample sn sd : exists m, convert_to_nnj [TUpsample sn sd : tlayer K] = Ok m /\ forall s x, snd (forward m s x) = Raise ValueError.
  Proof. eexists. split; [reflexivity|]. intros s x. now rewrite forward_pure, fwd_Seq. Qed.
End ConvertSeq.

(** * Triangular inverses *)
Local Open Scope R_scope.
Lemma rows_len (L : mat) n : length (tri_inv_rows L n) = n.
Proof. induction n; auto. cbn [tri_inv_rows]. rewrite app_length, IHn. cbn. lia. Qed.
Lemma rows_stable (L : mat) n i d : (i < n)%nat -> nth i (tri_inv_rows L n) d = nth i (tri_inv_rows L (S i)) d.
Proof.
  intros Hi. induction n as [|n IH]; [lia|]. destruct (Nat.eq_dec i n) as [->|Hne]; auto.
  change (tri_inv_rows L (S n)) with (tri_inv_rows L n ++ [fun j => ndiv (nsub (if Nat.eqb n j then n1 else n0)
     (bsum n (fun k => nmul (L n k) (nth k (tri_inv_rows L n) (fun _ => n0) j)))) (L n n)]).
  rewrite app_nth1 by (rewrite rows_len; lia). apply IH. lia.
Qed.
Lemma tri_inv_eq (L : mat) n i j : (i < n)%nat ->
  tri_inv L n i j = ((if (i =? j)%nat then 1 else 0) - bsum i (fun k => L i k * tri_inv L n k j)) / L i i.
Proof.
  intros Hi. unfold tri_inv at 1. rewrite rows_stable by auto. cbn [tri_inv_rows].
  rewrite app_nth2 by (rewrite rows_len; lia). rewrite rows_len, Nat.sub_diag. cbn [nth].
  cbn [ndiv nsub nmul n0 n1 Num_R]. unfold Rdiv. f_equal. f_equal. apply bsum_ext. intros k Hk. f_equal.
  unfold tri_inv. rewrite (rows_stable L n k) by lia. rewrite (rows_stable L i k) by lia. reflexivity.
Qed.

Definition lower_tri (L : mat) : Prop := forall i j, (i < j)%nat -> L i j = 0.
Definition unit_diag (n : nat) (L : mat) : Prop := forall i, (i < n)%nat -> L i i <> 0.

Lemma bsum_lower (L : mat) n i (g : nat -> R) : (i < n)%nat -> lower_tri L ->
  bsum n (fun k => L i k * g k) = bsum i (fun k => L i k * g k) + L i i * g i.
Proof.
  intros Hi HL. rewrite (bsum_split (K := R) n (S i)) by lia.
  etransitivity; [|apply Rplus_0_r]. cbn [nadd Num_R]. f_equal.
  refine (bsum_0 (K := R) _ _ _). intros k Hk. rewrite HL by lia. cbn. ring.
Qed.
Lemma tri_right (L : mat) n i j : (i < n)%nat -> lower_tri L -> unit_diag n L ->
  mmul n L (tri_inv L n) i j = if (i =? j)%nat then 1 else 0.
Proof.
  intros Hi HL HD. unfold mmul. rewrite bsum_lower by auto. rewrite (tri_inv_eq L n i j Hi). field. auto.
Qed.
Lemma mmul_assoc n (A B C : mat) i j : mmul n (mmul n A B) C i j = mmul n A (mmul n B C) i j.
Proof.
  unfold mmul. transitivity (bsum n (fun k => bsum n (fun l => A i l * B l k * C k j))).
  - apply (bsum_ext (K := R)). intros k _. symmetry. exact (bsum_mul_r (K := R) n (C k j) (fun l => A i l * B l k)).
  - etransitivity; [exact (bsum_swap (K := R) n n (fun k l => A i l * B l k * C k j))|]. apply (bsum_ext (K := R)). intros k _.
    etransitivity; [|exact (bsum_mul_l (K := R) n (A i k) (fun l => B k l * C l j))]. apply (bsum_ext (K := R)). intros l _. cbn. ring.
Qed.
Definition I_ : mat := fun i j => if (i =? j)%nat then 1 else 0.
Lemma mmul_ext n (A A' B B' : mat) i j : (forall k, (k < n)%nat -> A i k = A' i k) -> (forall k, (k < n)%nat -> B k j = B' k j) ->
  mmul n A B i j = mmul n A' B' i j.
Proof. intros E F. apply (bsum_ext (K := R)). intros k Hk. now rewrite E, F. Qed.
Lemma mmul_I_l n (A : mat) i j : (i < n)%nat -> mmul n I_ A i j = A i j.
Proof. intros Hi. exact (bsum_delta_l (K := R) n i (fun k => A k j) Hi). Qed.
Lemma mmul_I_r n (A : mat) i j : (j < n)%nat -> mmul n A I_ i j = A i j.
Proof. intros Hj. exact (bsum_delta_r (K := R) n j (fun k => A i k) Hj). Qed.
(** forward substitution is injective *)
Lemma tri_cancel (L : mat) n (M N : mat) j : lower_tri L -> unit_diag n L ->
  (forall i, (i < n)%nat -> mmul n L M i j = mmul n L N i j) -> forall i, (i < n)%nat -> M i j = N i j.
Proof.
  intros HL HD E i. induction i as [i IH] using lt_wf_ind. intros Hi.
  specialize (E i Hi). unfold mmul in E. rewrite (bsum_lower L n i (fun k => M k j)) in E by auto. rewrite (bsum_lower L n i (fun k => N k j)) in E by auto.
  assert (X : bsum i (fun k => L i k * M k j) = bsum i (fun k => L i k * N k j)).
  { apply (bsum_ext (K := R)). intros k Hk. rewrite IH by lia. reflexivity. }
  rewrite X in E. apply (Rmult_eq_reg_l (L i i)); [exact (Rplus_eq_reg_l _ _ _ E)|auto].
Qed.
Lemma tri_left (L : mat) n i j : (i < n)%nat -> (j < n)%nat -> lower_tri L -> unit_diag n L ->
  mmul n (tri_inv L n) L i j = if (i =? j)%nat then 1 else 0.
Proof.
  intros Hi Hj HL HD. revert i Hi. apply (tri_cancel L n (mmul n (tri_inv L n) L) I_ j HL HD). intros i Hi.
  rewrite <- mmul_assoc. rewrite mmul_I_r by auto.
  rewrite (mmul_ext n _ I_ L L i j); [now apply mmul_I_l| |auto].
  intros k Hk. now apply tri_right.
Qed.
Definition tr_ (A : mat) : mat := fun i j => A j i.
Lemma mmul_tr n (A B : mat) i j : mmul n (tr_ A) (tr_ B) i j = mmul n B A j i.
Proof. apply (bsum_ext (K := R)). intros k _. unfold tr_. cbn. ring. Qed.
Lemma gram_mmul n (C : mat) i j : gram n C i j = mmul n C (tr_ C) i j.
Proof. reflexivity. Qed.
Lemma inverse_gram (L : mat) n (X : mat) : lower_tri L -> unit_diag n L ->
  (forall i j, (i < n)%nat -> (j < n)%nat -> X i j = bsum n (fun k => tri_inv L n k i * tri_inv L n k j)) ->
  is_inverse n (gram n L) X.
Proof.
  intros HL HD HX i j Hi Hj. set (V := tri_inv L n) in *.
  assert (EX : forall a b, (a < n)%nat -> (b < n)%nat -> X a b = mmul n (tr_ V) V a b) by (intros; now rewrite HX).
  assert (TR : forall a b, (a < n)%nat -> (b < n)%nat -> mmul n L V a b = I_ a b) by (intros; now apply tri_right).
  assert (TL : forall a b, (a < n)%nat -> (b < n)%nat -> mmul n V L a b = I_ a b) by (intros; now apply tri_left).
  assert (TT : forall a b, (a < n)%nat -> (b < n)%nat -> mmul n (tr_ L) (tr_ V) a b = I_ a b).
  { intros. rewrite mmul_tr, TL by auto. unfold I_. now rewrite Nat.eqb_sym. }
  assert (TT' : forall a b, (a < n)%nat -> (b < n)%nat -> mmul n (tr_ V) (tr_ L) a b = I_ a b).
  { intros. rewrite mmul_tr, TR by auto. unfold I_. now rewrite Nat.eqb_sym. }
  split.
  - rewrite (mmul_ext n (gram n L) (mmul n L (tr_ L)) X (mmul n (tr_ V) V) i j); [|reflexivity|intros; now apply EX].
    rewrite mmul_assoc.
    rewrite (mmul_ext n L L (mmul n (tr_ L) (mmul n (tr_ V) V)) V i j); [now apply TR|reflexivity|]. intros k Hk.
    rewrite <- mmul_assoc. rewrite (mmul_ext n _ I_ V V k j); [now apply mmul_I_l|intros; now apply TT|reflexivity].
  - rewrite (mmul_ext n X (mmul n (tr_ V) V) (gram n L) (mmul n L (tr_ L)) i j); [|intros; now apply EX|reflexivity].
    rewrite mmul_assoc.
    rewrite (mmul_ext n (tr_ V) (tr_ V) (mmul n V (mmul n L (tr_ L))) (tr_ L) i j); [now apply TT'|reflexivity|]. intros k Hk.
    rewrite <- mmul_assoc. rewrite (mmul_ext n _ I_ (tr_ L) (tr_ L) k j); [now apply mmul_I_l|intros; now apply TL|reflexivity].
Qed.
(** inverses are unique, on both sides *)
Lemma inverse_unique n (A B X : mat) : is_inverse n A X -> is_inverse n B X ->
  forall i j, (i < n)%nat -> (j < n)%nat -> A i j = B i j.
Proof.
  intros HA HB i j Hi Hj.
  transitivity (mmul n A (mmul n X B) i j).
  - rewrite (mmul_ext n A A _ I_ i j); [now rewrite mmul_I_r|reflexivity|]. intros k Hk. now apply HB.
  - rewrite <- mmul_assoc. rewrite (mmul_ext n _ I_ B B i j); [now apply mmul_I_l| |reflexivity]. intros k Hk. now apply HA.
Qed.
Lemma tril_lower (A : mat) : lower_tri (tril A).
Proof. intros i j Hij. unfold tril. destruct (Nat.leb_spec j i); [lia|auto]. Qed.
Local Open Scope nat_scope.

Lemma valid_app pre idx p q : valid pre p -> valid idx q -> valid (pre ++ idx) (p ++ q).
Proof.
  revert p. induction pre as [|d pre IH]; intros [|a p]; cbn; try tauto. intros [Ha Hp] Hq. auto.
Qed.

(** * torch.cholesky_inverse on stacks of matrices *)
Lemma cholesky_inverse_ok (t : tensor R) pre n : shape t = pre ++ [n; n] ->
  exists u, cholesky_inverse t = Ok u /\ shape u = pre ++ [n; n] /\ wf u /\
    forall p i j, valid pre p -> i < n -> j < n ->
      block_of u p i j = bsum n (fun k => tri_inv (tril (block_of t p)) n k i * tri_inv (tril (block_of t p)) n k j)%R.
Proof.
  intros St. unfold cholesky_inverse. rewrite St, app_length. cbn [length].
  replace (length pre + 2 - 1) with (length pre + 1) by lia. replace (length pre + 2 - 2) with (length pre) by lia.
  destruct (Nat.ltb_spec (length pre + 2) 2); [lia|].
  rewrite !app_nth2 by lia. replace (length pre + 1 - length pre) with 1 by lia. rewrite Nat.sub_diag. cbn [nth].
  rewrite Nat.eqb_refl. eexists. split; [reflexivity|]. split; [reflexivity|]. split; [apply wf_tab|].
  intros p i j Hp Hi Hj. unfold block_of at 1.
  assert (Lp : length p = length pre) by now apply valid_len.
  etransitivity; [apply (get_tab (A := R)); apply valid_app; [auto|cbn; auto]|].
  rewrite firstn_app, Lp, Nat.sub_diag. cbn [firstn]. rewrite firstn_all2, app_nil_r by lia.
  rewrite !app_nth2 by lia. rewrite !Lp, Nat.sub_diag. replace (length pre + 1 - length pre) with 1 by lia. reflexivity.
Qed.
Lemma block_inverse (t : tensor R) pre n u : shape t = pre ++ [n; n] -> cholesky_inverse t = Ok u ->
  forall p, valid pre p -> (forall i, i < n -> block_of t p i i <> 0%R) ->
    is_inverse n (gram n (tril (block_of t p))) (block_of u p).
Proof.
  intros St E p Hp HD. destruct (cholesky_inverse_ok t pre n St) as (u' & E' & Su & Wu & V). rewrite E in E'. injection E' as <-.
  apply inverse_gram; [apply tril_lower| |].
  - intros i Hi. unfold tril. rewrite Nat.leb_refl. auto.
  - intros i j Hi Hj. now apply V.
Qed.

(** * Nested lists *)
Section ValueInd.
  Context {A : Type} (P : value A -> Prop) (HN : P VNone) (HT : forall t, P (VT t)) (HL : forall l, Forall P l -> P (VL l)).
  Fixpoint value_nested_ind (v : value A) : P v :=
    match v with
    | VNone => HN
    | VT t => HT t
    | VL l => HL l ((fix go (l : list (value A)) : Forall P l :=
                       match l with [] => Forall_nil _ | v :: l => Forall_cons _ (value_nested_ind v) (go l) end) l)
    end.
End ValueInd.
Definition diag_nonzero (n : nat) (A : mat) : Prop := forall i, i < n -> A i i <> 0%R.
Definition factor_inverse (n : nat) (A X : mat) : Prop :=
  is_inverse n (gram n (tril A)) X /\
  (is_inverse n A X <-> forall i j, i < n -> j < n -> A i j = gram n (tril A) i j).
Lemma factor_inverse_of n A X : is_inverse n (gram n (tril A)) X -> factor_inverse n A X.
Proof.
  intros H. split; auto. split.
  - intros HA i j Hi Hj. now apply (inverse_unique n A _ X).
  - intros E i j Hi Hj. destruct (H i j Hi Hj) as [H1 H2].
    rewrite (mmul_ext n A (gram n (tril A)) X X i j), (mmul_ext n X X A (gram n (tril A)) i j) by (intros; auto). auto.
Qed.
Lemma invert_blocks : forall v : value R, blocks diag_nonzero v ->
  exists u, invert_block_diagonal v = Ok u /\ blockwise factor_inverse v u.
Proof.
  refine (value_nested_ind _ _ _ _).
  - intros B. inversion B.
  - intros t B. inversion B as [pre n t' St HD|]; subst.
    destruct (cholesky_inverse_ok t pre n St) as (u & E & Su & Wu & _). exists (VT u). cbn. rewrite E. split; [reflexivity|].
    apply (bw_tensor _ pre n); auto. intros p Hp. apply factor_inverse_of. apply (block_inverse t pre n u); auto. now apply HD.
  - intros l IH B. inversion B as [|l' HB]; subst.
    assert (X : exists us, (fix go (l : list (value R)) : res (list (value R)) :=
                      match l with
                      | [] => Ok []
                      | v :: l => v <- invert_block_diagonal v ;; l <- go l ;; Ok (v :: l)
                      end) l = Ok us /\ Forall2 (blockwise factor_inverse) l us).
    { clear B. induction l as [|v l IHl]; [exists []; split; [reflexivity|constructor]|].
      inversion IH; subst. inversion HB; subst. destruct IHl as (us & E & F); auto.
      destruct H1 as (u & Eu & Bu); auto. exists (u :: us). rewrite Eu. cbn [bind]. rewrite E. split; [reflexivity|]. now constructor. }
    destruct X as (us & E & F). exists (VL us). cbn [invert_block_diagonal]. rewrite E. split; [reflexivity|]. now constructor.
Qed.
(** a 1x1 block *)
Lemma invert_1 (a : R) : a <> 0%R -> a <> 1%R ->
  exists u, invert_block_diagonal (VT (mkT [1; 1; 1] [a])) = Ok (VT u) /\ block_of u [0] 0 0 = (/ (a * a))%R /\ ~ is_inverse 1 (fun _ _ => a) (block_of u [0]).
Proof.
  intros Ha Ha1. set (t := mkT [1; 1; 1] [a]).
  destruct (cholesky_inverse_ok t [1] 1 eq_refl) as (u & E & Su & Wu & V). exists u. cbn [invert_block_diagonal]. rewrite E. cbn [bind].
  assert (Vu : block_of u [0] 0 0 = (/ (a * a))%R).
  { rewrite V by (cbn; auto with arith). rewrite (bsum_1 (K := R)). rewrite !tri_inv_eq by auto.
    change (tril (block_of t [0]) 0 0) with a. cbn. field. auto. }
  split; [reflexivity|]. split; [exact Vu|]. intros Hi. destruct (Hi 0 0) as [H1 _]; auto.
  unfold mmul in H1. rewrite (bsum_1 (K := R)) in H1. rewrite Vu in H1. cbn in H1. apply Ha1.
  assert (H2 : (a * / (a * a) = / a)%R) by (field; auto). rewrite H2 in H1. apply (f_equal Rinv) in H1. rewrite Rinv_inv, Rinv_1 in H1. auto.
Qed.
