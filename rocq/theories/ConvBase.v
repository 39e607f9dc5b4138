(** Facts about F.conv2d / F.conv_transpose2d with stride 1, and the index gymnastics of conv2d.py. *)
From Coq Require Import String Ascii List Arith ZArith Lia Bool.
From Verif Require Import Scalar Sums Tensor TensorLemmas EinsumLemmas Conv Abstract Simple LinearLayer ConvLayer PoolLayer
  Module Spec OpLemmas ReshapeLemmas Jac LeafSpec LeafSimple LeafUpsample.
Import ListNotations.
Local Open Scope nat_scope.
Local Open Scope list_scope.

Section Mv.
  Context {A : Type} (d : A).
  Implicit Types t : tensor A.
  Ltac mv := intros S; unfold movedim, permute, rank; rewrite S; reflexivity.
  Lemma mv5a t n1 n2 n3 n4 n5 : shape t = [n1; n2; n3; n4; n5] ->
    movedim d [1; 2; 3]%Z [-3; -2; -1]%Z t = tab5 n1 n5 n2 n3 n4 (fun i j k l m => get d t [i; k; l; m; j]).
  Proof. mv. Qed.
  Lemma mv5b t n1 n2 n3 n4 n5 : shape t = [n1; n2; n3; n4; n5] ->
    movedim d [-3; -2; -1]%Z [1; 2; 3]%Z t = tab5 n1 n3 n4 n5 n2 (fun i j k l m => get d t [i; m; j; k; l]).
  Proof. mv. Qed.
  Lemma mv4a t n1 n2 n3 n4 : shape t = [n1; n2; n3; n4] ->
    movedim d [1; 2; 3]%Z [-3; -2; -1]%Z t = tab4 n1 n2 n3 n4 (fun i j k l => get d t [i; j; k; l]).
  Proof. mv. Qed.
  Lemma mv4b t n1 n2 n3 n4 : shape t = [n1; n2; n3; n4] ->
    movedim d [-3; -2; -1]%Z [1; 2; 3]%Z t = tab4 n1 n2 n3 n4 (fun i j k l => get d t [i; j; k; l]).
  Proof. mv. Qed.
  Lemma mv4_01 t n1 n2 n3 n4 : shape t = [n1; n2; n3; n4] ->
    movedim d [0]%Z [1]%Z t = tab4 n2 n1 n3 n4 (fun i j k l => get d t [j; i; k; l]).
  Proof. mv. Qed.
  Lemma mv5_01 t n1 n2 n3 n4 n5 : shape t = [n1; n2; n3; n4; n5] ->
    movedim d [0]%Z [1]%Z t = tab5 n2 n1 n3 n4 n5 (fun i j k l m => get d t [j; i; k; l; m]).
  Proof. mv. Qed.
  Lemma mv3_12 t n1 n2 n3 : shape t = [n1; n2; n3] ->
    movedim d [1]%Z [2]%Z t = tab3 n1 n3 n2 (fun i j k => get d t [i; k; j]).
  Proof. mv. Qed.
  Lemma mv3_m1 t n1 n2 n3 : shape t = [n1; n2; n3] ->
    movedim d [-1]%Z [-2]%Z t = tab3 n1 n3 n2 (fun i j k => get d t [i; k; j]).
  Proof. mv. Qed.
  Lemma mv3_m2 t n1 n2 n3 : shape t = [n1; n2; n3] ->
    movedim d [-2]%Z [-1]%Z t = tab3 n1 n3 n2 (fun i j k => get d t [i; k; j]).
  Proof. mv. Qed.
  Lemma mv2_m1 t n1 n2 : shape t = [n1; n2] ->
    movedim d [-1]%Z [-2]%Z t = tab2 n2 n1 (fun j k => get d t [k; j]).
  Proof. mv. Qed.
  Ltac fl := intros S; unfold flip, rank, dim; rewrite S; apply tab_ext; intros idx V; didx idx V; reflexivity.
  Lemma flip4_23 t n1 n2 n3 n4 : shape t = [n1; n2; n3; n4] ->
    flip d [-2; -1]%Z t = tab4 n1 n2 n3 n4 (fun i j k l => get d t [i; j; n3 - 1 - k; n4 - 1 - l]).
  Proof. fl. Qed.
  Lemma flip5_23 t n1 n2 n3 n4 n5 : shape t = [n1; n2; n3; n4; n5] ->
    flip d [-3; -2]%Z t = tab5 n1 n2 n3 n4 n5 (fun i j k l m => get d t [i; j; n3 - 1 - k; n4 - 1 - l; m]).
  Proof. fl. Qed.
  Lemma flip4_123 t n1 n2 n3 n4 : shape t = [n1; n2; n3; n4] ->
    flip d [-3; -2; -1]%Z t = tab4 n1 n2 n3 n4 (fun i j k l => get d t [i; n2 - 1 - j; n3 - 1 - k; n4 - 1 - l]).
  Proof. fl. Qed.
  Lemma flip4_01 t n1 n2 n3 n4 : shape t = [n1; n2; n3; n4] ->
    flip d [-4; -3]%Z t = tab4 n1 n2 n3 n4 (fun i j k l => get d t [n1 - 1 - i; n2 - 1 - j; k; l]).
  Proof. fl. Qed.
  Lemma get_tab5 n m p q r (f : nat -> nat -> nat -> nat -> nat -> A) i j k l s :
    i < n -> j < m -> k < p -> l < q -> s < r -> get d (tab5 n m p q r f) [i; j; k; l; s] = f i j k l s.
  Proof. intros. unfold tab5. rewrite get_tab; cbn; auto 9. Qed.

  (** entry of the sub-tensor t[i] *)
  Lemma select0_get t B s i idx : shape t = B :: s -> valid s idx -> get d (select0 d i t) idx = get d t (i :: idx).
  Proof. intros S V. unfold select0. rewrite S. cbn [tl]. now rewrite get_tab. Qed.

  Lemma stack_ok B s (g : nat -> list nat -> A) : 0 < B ->
    stack d (map (fun i => tab s (g i)) (seq 0 B)) = Ok (tab (B :: s) (fun idx => g (hd 0 idx) (tl idx))).
  Proof.
    intros HB. unfold stack. destruct B as [|B']; [lia|]. set (B := S B') in *.
    destruct (map _ (seq 0 B)) as [|t0 ts] eqn:E; [discriminate|].
    assert (St : shape t0 = s) by (cbn in E; injection E as <- _; reflexivity).
    rewrite <- E. replace (forallb _ _) with true.
    2:{ symmetry. apply forallb_forall. intros u Hu. apply in_map_iff in Hu as (i & <- & _). rewrite St. apply shape_eqb_refl. }
    rewrite map_length, seq_length, St. f_equal.
    assert (L : forall n k, length (flat_map (@data A) (map (fun i => tab s (g i)) (seq k n))) = n * numel s).
    { induction n; intros k; [reflexivity|]. cbn [seq map flat_map]. rewrite app_length, IHn.
      replace (length (data (tab s (g k)))) with (numel s) by (symmetry; apply wf_tab). lia. }
    apply (tab_eq d); [|reflexivity|].
    { unfold wf. cbn [data shape]. rewrite numel_cons. apply L. }
    intros idx V. destruct idx as [|i idx]; [contradiction|]. destruct V as [Hi V]. cbn [hd tl].
    unfold get. cbn [shape data ravel].
    assert (G : forall n k i, i < n -> nth (i * numel s + ravel s idx) (flat_map (@data A) (map (fun i => tab s (g i)) (seq k n))) d = g (k + i) idx).
    { clear i Hi. induction n; intros k i Hi; [lia|]. cbn [seq map flat_map].
      assert (Ld : length (data (tab s (g k))) = numel s) by apply wf_tab. pose proof (ravel_lt s idx V) as Lr.
      destruct i as [|i].
      - rewrite app_nth1 by (rewrite Ld; lia). cbn [Nat.mul Nat.add]. rewrite Nat.add_0_r.
        pose proof (get_tab d s (g k) idx V) as Gt. exact Gt.
      - rewrite app_nth2 by (rewrite Ld; lia). rewrite Ld. replace (S i * numel s + ravel s idx - numel s) with (i * numel s + ravel s idx) by lia.
        rewrite IHn by lia. f_equal. lia. }
    rewrite G by auto. reflexivity.
  Qed.
  Lemma mapM_ok {B C} (f : B -> res C) (g : B -> C) l : (forall a, In a l -> f a = Ok (g a)) -> mapM f l = Ok (map g l).
  Proof.
    induction l as [|a l IH]; intros E; [reflexivity|]. cbn. rewrite E by (left; auto). cbn [bind].
    rewrite IH by (intros; apply E; now right). reflexivity.
  Qed.
End Mv.

Lemma vmap2_ok {A B C} (da : A) (db : B) (dc : C) f (a : tensor A) (b : tensor B) n sa sb s (g : nat -> list nat -> C) :
  shape a = n :: sa -> shape b = n :: sb -> 0 < n ->
  (forall i, i < n -> f (select0 da i a) (select0 db i b) = Ok (tab s (g i))) ->
  vmap2 da db dc f a b = Ok (tab (n :: s) (fun idx => g (hd 0 idx) (tl idx))).
Proof.
  intros Sa Sb Hn E. unfold vmap2, dim. rewrite Sa, Sb. cbn [nth]. rewrite Nat.eqb_refl.
  rewrite (mapM_ok _ (fun i => tab s (g i))).
  - cbn [bind]. now apply stack_ok.
  - intros i Hi. apply in_seq in Hi. apply E. lia.
Qed.

Section Loop.
  Context {K} `{CR : CRing K}.
  Lemma loop_rows_ok n s f (g : nat -> list nat -> K) : (forall i, i < n -> f i = Ok (tab s (g i))) ->
    loop_rows n s f = Ok (tab (n :: s) (fun idx => g (hd 0 idx) (tl idx))).
  Proof.
    intros E. unfold loop_rows.
    assert (G : forall m, m <= n -> fold_left (fun acc i => acc <- acc ;; r <- f i ;; set0 n0 i r acc) (seq 0 m) (Ok (zeros (n :: s))) =
      Ok (tab (n :: s) (fun idx => if hd 0 idx <? m then g (hd 0 idx) (tl idx) else n0))).
    { induction m as [|m IH]; intros Hm; [reflexivity|].
      rewrite seq_S, fold_left_app, IH by lia. cbn [fold_left Nat.add bind]. rewrite E by lia. cbn [bind].
      unfold set0. cbn [shape tab tl]. rewrite shape_eqb_refl. f_equal. apply tab_ext. intros idx V.
      destruct idx as [|i idx]; [contradiction|]. destruct V as [Hi V]. cbn [nth hd tl].
      destruct (Nat.eqb_spec i m) as [->|N].
      - rewrite get_tab by auto. destruct (Nat.ltb_spec m (S m)); [reflexivity|lia].
      - rewrite get_tab by (split; auto). cbn [hd tl].
        destruct (Nat.ltb_spec i m), (Nat.ltb_spec i (S m)); auto; lia. }
    rewrite G by lia. f_equal. apply tab_ext. intros idx V. destruct idx as [|i idx]; [contradiction|]. destruct V as [Hi V]. cbn [hd].
    destruct (Nat.ltb_spec i n); [reflexivity|lia].
  Qed.
End Loop.

(** flat parameter index *)
Definition p4 (c1 kh kw o c u v : nat) : nat := ((o * c1 + c) * kh + u) * kw + v.
Lemma p4_ex c2 c1 kh kw p : p < c2 * c1 * kh * kw -> exists o c u v, o < c2 /\ c < c1 /\ u < kh /\ v < kw /\ p = p4 c1 kh kw o c u v.
Proof.
  intros Hp. destruct (chw_ex (c2 * c1) kh kw p Hp) as (a & u & v & Ha & Hu & Hv & ->).
  destruct (divmod_lt a c2 c1 Ha) as (A & B & E). exists (a / c1), (a mod c1), u, v. repeat split; auto.
  unfold p4, chw. now rewrite <- E.
Qed.
Lemma p4_lt c2 c1 kh kw o c u v : o < c2 -> c < c1 -> u < kh -> v < kw -> p4 c1 kh kw o c u v < c2 * c1 * kh * kw.
Proof. intros. unfold p4. assert (o * c1 + c < c2 * c1) by nia. assert ((o * c1 + c) * kh + u < c2 * c1 * kh) by nia. nia. Qed.
Lemma p4_o c1 kh kw o c u v : c < c1 -> u < kh -> v < kw -> p4 c1 kh kw o c u v / (c1 * kh * kw) = o.
Proof.
  intros. unfold p4. replace (((o * c1 + c) * kh + u) * kw + v) with (chw kh kw c u v + o * (c1 * kh * kw)) by (unfold chw; ring).
  pose proof (chw_lt c1 kh kw c u v). rewrite Nat.div_add, Nat.div_small by (try apply chw_lt; auto; nia). lia.
Qed.
Lemma p4_c c1 kh kw o c u v : c < c1 -> u < kh -> v < kw -> p4 c1 kh kw o c u v mod (c1 * kh * kw) / (kh * kw) = c.
Proof.
  intros. unfold p4. replace (((o * c1 + c) * kh + u) * kw + v) with (chw kh kw c u v + o * (c1 * kh * kw)) by (unfold chw; ring).
  pose proof (chw_lt c1 kh kw c u v ltac:(auto) ltac:(auto) ltac:(auto)). rewrite Nat.mod_add by lia. rewrite Nat.mod_small by (apply chw_lt; auto). now apply chw_div.
Qed.
Lemma p4_u c1 kh kw o c u v : u < kh -> v < kw -> p4 c1 kh kw o c u v mod (kh * kw) / kw = u.
Proof.
  intros. unfold p4. change (((o * c1 + c) * kh + u) * kw + v) with (chw kh kw (o * c1 + c) u v). now apply chw_divmod.
Qed.
Lemma p4_v c1 kh kw o c u v : v < kw -> p4 c1 kh kw o c u v mod kw = v.
Proof.
  intros. unfold p4. change (((o * c1 + c) * kh + u) * kw + v) with (chw kh kw (o * c1 + c) u v). now apply chw_mod.
Qed.

Section ConvSum.
  Context {K} `{CR : CRing K}.
  Add Ring Kring : (cring : ring_theory n0 n1 nadd nmul nsub nopp (@eq K)).
  Notation gt := (get (@n0 K _)).
  Notation T := (tensor K).

  Lemma bsum_if n (c : bool) (f : nat -> K) : bsum n (fun i => if c then f i else n0) = if c then bsum n f else n0.
  Proof. destruct c; auto. now apply bsum_0. Qed.
  (** both sides run over the pairs (y2, y1) with y2 + u = y1 + p *)
  Lemma conv_1d (F : nat -> nat -> K) h1 h2 kh p u : p < kh -> h2 + kh = h1 + 2 * p + 1 -> u < kh ->
    bsum h1 (fun y' => if (kh - 1 - p <=? u + y') && (u + y' <? h2 + (kh - 1 - p)) then F (h2 - 1 - (u + y' - (kh - 1 - p))) (h1 - 1 - y') else n0) =
    bsum h2 (fun y2 => if (p <=? y2 + u) && (y2 + u <? h1 + p) then F y2 (y2 + u - p) else n0).
  Proof.
    intros Hp Hh Hu.
    transitivity (bsum h1 (fun y1 => bsum h2 (fun y2 => if y2 + u =? y1 + p then F y2 y1 else n0))).
    - rewrite bsum_rev. apply bsum_ext. intros y1 H1.
      replace (h1 - 1 - (h1 - 1 - y1)) with y1 by lia.
      destruct (Nat.leb_spec (kh - 1 - p) (u + (h1 - 1 - y1))) as [L|L]; cbn [andb].
      + destruct (Nat.ltb_spec (u + (h1 - 1 - y1)) (h2 + (kh - 1 - p))) as [L'|L'].
        * rewrite (bsum_single h2 (h2 - 1 - (u + (h1 - 1 - y1) - (kh - 1 - p)))).
          -- match goal with |- _ = if ?a =? ?b then _ else _ => destruct (Nat.eqb_spec a b); [reflexivity|lia] end.
          -- lia.
          -- intros y2 H2 N. destruct (Nat.eqb_spec (y2 + u) (y1 + p)); [lia|reflexivity].
        * rewrite bsum_0; auto. intros y2 H2. destruct (Nat.eqb_spec (y2 + u) (y1 + p)); [lia|reflexivity].
      + rewrite bsum_0; auto. intros y2 H2. destruct (Nat.eqb_spec (y2 + u) (y1 + p)); [lia|reflexivity].
    - rewrite bsum_swap. apply bsum_ext. intros y2 H2.
      destruct (Nat.leb_spec p (y2 + u)) as [L|L]; cbn [andb].
      + destruct (Nat.ltb_spec (y2 + u) (h1 + p)) as [L'|L'].
        * rewrite (bsum_single h1 (y2 + u - p)).
          -- destruct (Nat.eqb_spec (y2 + u) (y2 + u - p + p)); [reflexivity|lia].
          -- lia.
          -- intros y1 H1 N. destruct (Nat.eqb_spec (y2 + u) (y1 + p)); [lia|reflexivity].
        * apply bsum_0. intros y1 H1. destruct (Nat.eqb_spec (y2 + u) (y1 + p)); [lia|reflexivity].
      + apply bsum_0. intros y1 H1. destruct (Nat.eqb_spec (y2 + u) (y1 + p)); [lia|reflexivity].
  Qed.
  (** an image entry read at padded position (Y, X) *)
  Definition pad0 (h1 w1 ph pw : nat) (X : nat -> nat -> K) (y x : nat) : K :=
    if (ph <=? y) && (y <? h1 + ph) then if (pw <=? x) && (x <? w1 + pw) then X (y - ph) (x - pw) else n0 else n0.
  Lemma pget_pad0 (t : T) h1 w1 ph pw b c y x : pget PZeros t h1 w1 ph pw b c y x = pad0 h1 w1 ph pw (fun y x => gt t [b; c; y; x]) y x.
  Proof.
    unfold pget, pad0, pad_src. destruct ((ph <=? y) && (y <? h1 + ph)); auto.
    destruct ((pw <=? x) && (x <? w1 + pw)); auto.
  Qed.
  Lemma pad0_ext h1 w1 ph pw X X' y x : (forall y x, y < h1 -> x < w1 -> X y x = X' y x) -> pad0 h1 w1 ph pw X y x = pad0 h1 w1 ph pw X' y x.
  Proof.
    intros E. unfold pad0. destruct (Nat.leb_spec ph y), (Nat.ltb_spec y (h1 + ph)); cbn [andb]; auto.
    destruct (Nat.leb_spec pw x), (Nat.ltb_spec x (w1 + pw)); cbn [andb]; auto. apply E; lia.
  Qed.
  (** correlation of a flipped map with a flipped image *)
  Lemma conv_2d (A X : nat -> nat -> K) h1 w1 h2 w2 kh kw ph pw u v :
    ph < kh -> pw < kw -> h2 + kh = h1 + 2 * ph + 1 -> w2 + kw = w1 + 2 * pw + 1 -> u < kh -> v < kw ->
    bsum h1 (fun y' => bsum w1 (fun x' => nmul (pad0 h2 w2 (kh - 1 - ph) (kw - 1 - pw) A (u + y') (v + x')) (X y' x'))) =
    bsum h2 (fun y => bsum w2 (fun x => nmul (A (h2 - 1 - y) (w2 - 1 - x)) (pad0 h1 w1 ph pw (fun y x => X (h1 - 1 - y) (w1 - 1 - x)) (y + u) (x + v)))).
  Proof.
    intros Hp Hq Hh Hw Hu Hv.
    transitivity (bsum h1 (fun y' => if (kh - 1 - ph <=? u + y') && (u + y' <? h2 + (kh - 1 - ph)) then
      (fun y2 y1 => bsum w2 (fun x => if (pw <=? x + v) && (x + v <? w1 + pw) then nmul (A (h2 - 1 - y2) (w2 - 1 - x)) (X (h1 - 1 - y1) (w1 - 1 - (x + v - pw))) else n0))
      (h2 - 1 - (u + y' - (kh - 1 - ph))) (h1 - 1 - y') else n0)).
    - apply bsum_ext. intros y' Hy'. unfold pad0.
      destruct (Nat.leb_spec (kh - 1 - ph) (u + y')); cbn [andb]; [|apply bsum_0; intros; ring].
      destruct (Nat.ltb_spec (u + y') (h2 + (kh - 1 - ph))); cbn [andb]; [|apply bsum_0; intros; ring].
      rewrite <- (conv_1d (fun x2 x1 => nmul (A (h2 - 1 - (h2 - 1 - (u + y' - (kh - 1 - ph)))) (w2 - 1 - x2)) (X (h1 - 1 - (h1 - 1 - y')) (w1 - 1 - x1)))
        w1 w2 kw pw v) by auto.
      apply bsum_ext. intros x' Hx'.
      destruct (Nat.leb_spec (kw - 1 - pw) (v + x')); cbn [andb]; [|ring].
      destruct (Nat.ltb_spec (v + x') (w2 + (kw - 1 - pw))); cbn [andb]; [|ring].
      f_equal; f_equal; lia.
    - rewrite (conv_1d (fun y2 y1 => bsum w2 (fun x => if (pw <=? x + v) && (x + v <? w1 + pw) then nmul (A (h2 - 1 - y2) (w2 - 1 - x)) (X (h1 - 1 - y1) (w1 - 1 - (x + v - pw))) else n0)) h1 h2 kh ph u) by auto. apply bsum_ext. intros y Hy. unfold pad0.
      destruct ((ph <=? y + u) && (y + u <? h1 + ph)); [|symmetry; apply bsum_0; intros; ring].
      apply bsum_ext. intros x Hx. destruct ((pw <=? x + v) && (x + v <? w1 + pw)); ring.
  Qed.
End ConvSum.
