(** One image without a batch dimension: layers that answer differently, and concrete cases. *)
From Coq Require Import List Arith ZArith Lia Bool.
From Verif Require Import Scalar Sums Tensor TensorLemmas OpLemmas Conv Abstract Simple LinearLayer ConvLayer PoolLayer Module Spec Domain Jac Calls
  LeafSpec TreeBase Fwd ImgSpec.
Import ListNotations.
Local Open Scope nat_scope.
Local Open Scope list_scope.

Section Different.
  Context {K} `{CR : CRing K}.
  Notation gt := (get (@n0 K _)).
  Notation T := (tensor K).
  Lemma up_image k c h w (x : T) : 0 < k -> 0 < w -> shape x = [c; h; w] ->
    exists y, fwd (Leaf (Upsample k 1)) x = Ok y /\ shape y = [c; h; w * k] /\
      forall ch i j u, ch < c -> i < h -> j < w -> u < k -> gt y [ch; i; j * k + u] = gt x [ch; i; j].
  Proof.
    intros Hk Hw Sx. rewrite fwd_Leaf. cbn [leaf_forward]. unfold up_forward, upsample_nearest. rewrite Sx, !Nat.div_1_r.
    replace ((0 <? k) && (0 <? 1) && (0 <? w * k))%nat with true by (symmetry; repeat (apply andb_true_intro; split); apply Nat.ltb_lt; nia).
    cbn [check]. eexists. split; [reflexivity|]. split; [reflexivity|].
    intros ch i j u Hc Hi Hj Hu. rewrite get_tab3 by (auto; nia). f_equal.
    rewrite Nat.mul_1_r, (Nat.add_comm (j * k)), Nat.div_add, Nat.div_small by lia. f_equal. f_equal. f_equal. lia.
  Qed.
  Lemma skip_image F c h w (x y t : T) : shape x = [c; h; w] -> fwd F x = Ok y -> fwd (Skip F) x = Ok t ->
    exists h', shape y = [c; h'; w] /\ shape t = [c; h + h'; w].
  Proof.
    intros Sx Fy Ft. rewrite fwd_Skip, Fy in Ft. cbn [bind cat rank] in Ft. unfold cat in Ft. unfold rank in Ft. rewrite Sx in Ft. cbn [length Nat.ltb Nat.leb forallb] in Ft.
    destruct (shape_eqb _ _) in Ft; [|discriminate]. cbn [andb] in Ft.
    destruct (shape_eqb (set_nth 1 0 (shape y)) _) eqn:E in Ft; [|discriminate]. cbn [andb] in Ft. injection Ft as <-. apply shape_eqb_true in E.
    destruct (shape y) as [|c' [|h' s]] eqn:Sy; cbn [set_nth] in E; try discriminate. injection E as -> ->.
    exists h'. split; [reflexivity|]. cbn [shape tab map fold_right set_nth dim]. unfold dim. rewrite Sx, Sy. cbn [nth]. f_equal. f_equal. lia.
  Qed.
End Different.

(** Upsample, SkipConnection and Flatten: both calls return, the results differ *)
Definition img : tensor Z := mkT [2; 1; 2] [1; 2; 3; 4]%Z.
Definition up_net : module Z := Seq true [Leaf (Upsample 2 1)].
Definition skip_net : module Z := Skip (Seq true [Leaf (Act ReLU)]).
Definition flatten_net : module Z := Seq true [Leaf Flatten].
Lemma different : forall m, In m [up_net; skip_net; flatten_net] -> exists y y' : tensor Z,
  fwd m img = Ok y /\ fwd m (unsqueeze0 img) = Ok y' /\ y <> squeeze0 y'.
Proof.
  intros m [<-|[<-|[<-|[]]]]; do 2 eexists; (split; [vm_compute; reflexivity|split; [vm_compute; reflexivity|discriminate]]).
Qed.
Definition pool11 : pool_cfg := {| pk := (1, 1); ps := (1, 1); pp := (0, 0); pd := (1, 1); pceil := false |}.
(** MaxPool2d(1) - Flatten - Linear(2, 1) on an image with two channels: vjp wrt weight answers, with one row per channel *)
Definition rows_net : module Z := Seq true [MaxPool (pool11); Leaf Flatten; Leaf (Linear (mkT [1; 2] [1; 1]%Z) None)].
Lemma row_per_channel : exists y g : tensor Z, meets rows_net img /\ fwd rows_net img = Ok y /\ shape y = [2; 1] /\
  snd (vjp rows_net (init rows_net) img None (mkT [2; 1] [1; 1]%Z) Weight) = Ok (Some g) /\ shape g = [2; n_params rows_net].
Proof.
  do 2 eexists. split; [left; discriminate|]. split; [vm_compute; reflexivity|]. split; [reflexivity|]. split; [vm_compute; reflexivity|reflexivity].
Qed.
(** Conv2d(2, 1, 1) - ReLU - MaxPool2d(1), and the same below a skip connection *)
Definition conv1 : leaf Z := Conv2d {| cstride := (1, 1); cpad := (0, 0); cdil := (1, 1); cgroups := 1; cmode := PZeros; cvmap := true |}
  (mkT [1; 2; 1; 1] [1; -1]%Z) None.
Definition image_example : module Z := Seq true [Leaf conv1; Leaf (Act ReLU); Seq true [MaxPool (pool11)]].
Lemma image_case : image_net image_example /\ fwd image_example img = Ok (mkT [1; 1; 2] [0; 0]%Z) /\
  fwd image_example (unsqueeze0 (mkT [2; 1; 2] [5; 2; 3; 4]%Z)) = Ok (mkT [1; 1; 1; 2] [2; 0]%Z) /\
  fwd image_example (mkT [2; 1; 2] [5; 2; 3; 4]%Z) = Ok (mkT [1; 1; 2] [2; 0]%Z).
Proof. split; [cbn; tauto|]. repeat split; vm_compute; reflexivity. Qed.
Lemma meets_case : meets image_example img /\ meets_late image_example img /\
  snd (vjp image_example (init image_example) img None (mkT [1; 2] [1; 1]%Z) Input) = Raise ValueError /\
  meets (Seq true [Leaf (Act ReLU); Leaf (Upsample 2 1)]) img.
Proof.
  split; [left; split; [reflexivity|discriminate]|]. split; [left; discriminate|]. split; [vm_compute; reflexivity|].
  right. eexists. split; [vm_compute; reflexivity|]. left. split; [reflexivity|discriminate].
Qed.
Lemma late_pool_case : meets_late (Seq true [Leaf (Act ReLU); MaxPool (pool11)]) img.
Proof. right. eexists. split; [vm_compute; reflexivity|]. left. discriminate. Qed.
Lemma rows_per_channel : exists (m : module Z) (x v y g : tensor Z), meets m x /\ shape x = [2; 1; 2] /\ fwd m x = Ok y /\ shape y = [2; 1] /\
  snd (vjp m (init m) x None v Weight) = Ok (Some g) /\ shape g = [2; n_params m].
Proof.
  destruct row_per_channel as (y & g & A & B & C & D & E). exists rows_net, img, (mkT [2; 1] [1; 1]%Z), y, g. auto 10.
Qed.
