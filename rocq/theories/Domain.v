(** The domain of the property theorems: which networks accept which sample shapes, which of them
    implement which products, and how weight-wise metrics are laid out in the API's (nested) lists.
    These are specifications written against the module syntax; they do not run the products. *)
From Coq Require Import String Ascii List Arith ZArith Lia Bool.
From Verif Require Import Scalar Sums Tensor Conv Abstract Simple LinearLayer ConvLayer PoolLayer Module Spec.
Import ListNotations.
Local Open Scope nat_scope.
Local Open Scope list_scope.

(** a shape that fits the integers given to Reshape: the same sizes, and any size in place of a single -1 *)
Fixpoint sizes_match (d : list Z) (s : list nat) : bool :=
  match d, s with
  | [], [] => true
  | z :: d, k :: s => (Z.eqb z (Z.of_nat k) || Z.eqb z (-1)) && sizes_match d s
  | _, _ => false
  end.
Definition dims_match (d : list Z) (s : list nat) : bool := (List.length (filter (Z.eqb (-1)) d) <=? 1) && sizes_match d s.

Section Dom.
  Context {K} `{Num K}.
  Notation gt := (get (@n0 K _)).
  Notation T := (tensor K).

  (** the function a module computes (its result does not depend on the hidden state) *)
  Definition fwd (m : module K) (x : T) : res T := snd (forward m st0 x).

  (** val may be absent or the output of the network *)
  Definition val_ok (m : module K) (x : T) (val : option T) : Prop := val = None \/ exists y, fwd m x = Ok y /\ val = Some y.

  (** *** Shape discipline: which layers accept samples of shape s and return samples of shape s'. *)
  Definition bias_ok (bias : option T) (n : nat) : Prop :=
    match bias with Some t => shape t = [n] /\ wf t | None => True end.
  (** a user-defined layer: forward and jacobian are total on samples of shape s and jacobian gives a
      matrix of the right size that does not depend on whether val is passed *)
  Definition custom_ok (c : custom K) (s s' : list nat) : Prop :=
    forall b x, 0 < b -> wf x -> shape x = b :: s ->
    exists y J, cu_forward c x = Ok y /\ wf y /\ shape y = b :: s' /\
      wf J /\ shape J = [b; numel s'; numel s] /\
      (forall val, val = None \/ val = Some y ->
         cu_jacobian c x val Input = Ok (Some J) /\ cu_jacobian c x val Weight = Ok None).

  (** a dilation d does not matter for a kernel of one row on an image of one row *)
  Definition dil_ok (d k n : nat) : Prop := 0 < d /\ (d = 1 \/ (k = 1 /\ n = 1)).
  Definition conv_ok (cfg : conv_cfg) (W : T) (bias : option T) (s s' : list nat) : Prop :=
    match s, s', shape W with
    | [c1; h1; w1], [c2; h2; w2], [c2'; c1'; kh; kw] =>
        c1' = c1 /\ c2' = c2 /\ bias_ok bias c2 /\ wf W /\
        cstride cfg = (1, 1) /\ (dil_ok (fst (cdil cfg)) kh h1 /\ dil_ok (snd (cdil cfg)) kw w1) /\
        cgroups cfg = 1 /\ (cmode cfg = PZeros \/ cpad cfg = (0, 0)) /\
        fst (cpad cfg) < kh /\ snd (cpad cfg) < kw /\
        h2 + kh = h1 + 2 * fst (cpad cfg) + 1 /\ w2 + kw = w1 + 2 * snd (cpad cfg) + 1 /\
        0 < c1 /\ 0 < c2 /\ 0 < h1 /\ 0 < w1 /\ 0 < h2 /\ 0 < w2
    | _, _, _ => False
    end.

  Definition leaf_typed (l : leaf K) (s s' : list nat) : Prop :=
    0 < numel s /\ 0 < numel s' /\
    match l with
    | Linear W bias =>
        match s, s' with
        | [c1], [c2] => shape W = [c2; c1] /\ wf W /\ bias_ok bias c2
        | _, _ => False
        end
    | Conv2d cfg W bias => conv_ok cfg W bias s s'
    | Act _ => s' = s
    | Flatten => s' = [numel s]
    | Reshape d => dims_match d s' = true /\ numel s' = numel s
    | L2Norm _ => s' = s
    | Upsample sn sd =>
        0 < sd /\ sn = sn / sd * sd /\
        match s, s' with
        | [c; h; w], [c'; h2; w2] => c' = c /\ h2 = h * (sn / sd) /\ w2 = w * (sn / sd)
        | _, _ => False
        end
    | Custom c => custom_ok c s s'
    end.

  (** pooling windows do not overlap *)
  Definition disjoint_windows (n k s p d n2 : nat) : Prop :=
    forall o o' z, o < n2 -> o' < n2 -> In z (window n k s p d o) -> In z (window n k s p d o') -> o = o'.
  (** every window contains at least one input position *)
  Definition windows_ok (n k s p d n2 : nat) : Prop := forall o, o < n2 -> window n k s p d o <> [].
  Definition pool_typed (cfg : pool_cfg) (s s' : list nat) : Prop :=
    0 < numel s /\ 0 < numel s' /\
    match s, s' with
    | [c; h; w], [c'; h2; w2] =>
        c' = c /\
        pool_len h (fst (pk cfg)) (fst (ps cfg)) (fst (pp cfg)) (fst (pd cfg)) (pceil cfg) = Some h2 /\
        pool_len w (snd (pk cfg)) (snd (ps cfg)) (snd (pp cfg)) (snd (pd cfg)) (pceil cfg) = Some w2 /\
        windows_ok h (fst (pk cfg)) (fst (ps cfg)) (fst (pp cfg)) (fst (pd cfg)) h2 /\
        windows_ok w (snd (pk cfg)) (snd (ps cfg)) (snd (pp cfg)) (snd (pd cfg)) w2 /\
        disjoint_windows h (fst (pk cfg)) (fst (ps cfg)) (fst (pp cfg)) (fst (pd cfg)) h2 /\
        disjoint_windows w (snd (pk cfg)) (snd (ps cfg)) (snd (pp cfg)) (snd (pd cfg)) w2
    | _, _ => False
    end.

  Inductive typed : module K -> list nat -> list nat -> Prop :=
  | ty_leaf l s s' : leaf_typed l s s' -> typed (Leaf l) s s'
  | ty_pool cfg s s' : pool_typed cfg s s' -> typed (MaxPool cfg) s s'
  | ty_seq ms s s' : typed_seq ms s s' -> typed (Seq true ms) s s'
  | ty_skip ms c c' r : typed_seq ms (c :: r) (c' :: r) -> typed (Skip (Seq true ms)) (c :: r) ((c + c') :: r)
  with typed_seq : list (module K) -> list nat -> list nat -> Prop :=
  | tys_nil s : 0 < numel s -> typed_seq [] s s
  | tys_cons m ms s s1 s2 : typed m s s1 -> typed_seq ms s1 s2 -> typed_seq (m :: ms) s s2.

  (** layers whose forward products (jvp, jmp, jmjTp) are implemented *)
  Definition leaf_fwdable (l : leaf K) : Prop :=
    match l with Conv2d _ _ _ | Upsample _ _ => False | _ => True end.
  Fixpoint fwdable (m : module K) : Prop :=
    match m with
    | Leaf l => leaf_fwdable l
    | MaxPool _ => False
    | Seq _ ms => (fix go l := match l with [] => True | m :: l => fwdable m /\ go l end) ms
    | Skip F => fwdable F
    end.

  (** layers for which jTmjp is right in the three diagonal modes: all but user-defined layers with a
      non-symmetric jacobian *)
  Definition custom_sym (c : custom K) : Prop :=
    forall x val J b m n, cu_jacobian c x val Input = Ok (Some J) -> shape J = [b; m; n] ->
    m = n /\ forall q i j, q < b -> i < n -> j < n -> gt J [q; i; j] = gt J [q; j; i].
  Definition leaf_sym (l : leaf K) : Prop := match l with Custom c => custom_sym c | _ => True end.
  Fixpoint all_sym (m : module K) : Prop :=
    match m with
    | Leaf l => leaf_sym l
    | MaxPool _ => True
    | Seq _ ms => (fix go l := match l with [] => True | m :: l => all_sym m /\ go l end) ms
    | Skip F => all_sym F
    end.
End Dom.
Scheme typed_mut := Minimality for typed Sort Prop
  with typed_seq_mut := Minimality for typed_seq Sort Prop.
Combined Scheme typed_both from typed_mut, typed_seq_mut.

(** parameters as the constructors of the layers create them *)
Definition leaf_sized {K} (l : leaf K) : Prop :=
  match l with
  | Linear W bias => exists c1 c2, shape W = [c2; c1] /\ wf W /\ bias_ok bias c2
  | Conv2d _ W bias => exists c1 c2 kh kw, shape W = [c2; c1; kh; kw] /\ wf W /\ bias_ok bias c2
  | _ => True
  end.
Fixpoint sized {K} (m : module K) : Prop :=
  match m with
  | Leaf l => leaf_sized l
  | MaxPool _ => True
  | Seq _ ms => (fix go l := match l with [] => True | m :: l => sized m /\ go l end) ms
  | Skip F => sized F
  end.
(** the same architecture: equal up to the values of the parameters *)
Definition leaf_arch {K} (l l' : leaf K) : Prop :=
  match l, l' with
  | Linear W b, Linear W' b' => shape W = shape W' /\ option_map shape b = option_map shape b'
  | Conv2d c W b, Conv2d c' W' b' => c = c' /\ shape W = shape W' /\ option_map shape b = option_map shape b'
  | _, _ => l = l'
  end.
Inductive arch {K} : module K -> module K -> Prop :=
| ar_leaf l l' : leaf_arch l l' -> arch (Leaf l) (Leaf l')
| ar_pool cfg : arch (MaxPool cfg) (MaxPool cfg)
| ar_seq h ms ms' : archs ms ms' -> arch (Seq h ms) (Seq h ms')
| ar_skip F F' : arch F F' -> arch (Skip F) (Skip F')
with archs {K} : list (module K) -> list (module K) -> Prop :=
| ars_nil : archs [] []
| ars_cons m m' ms ms' : arch m m' -> archs ms ms' -> archs (m :: ms) (m' :: ms').
Scheme arch_mut := Minimality for arch Sort Prop with archs_mut := Minimality for archs Sort Prop.
Combined Scheme arch_both from arch_mut, archs_mut.

(** no Sequential of the tree is empty *)
Fixpoint nonempty {K} (m : module K) : Prop :=
  match m with
  | Leaf _ | MaxPool _ => True
  | Seq _ ms => ms <> [] /\ (fix go l := match l with [] => True | m :: l => nonempty m /\ go l end) ms
  | Skip F => nonempty F
  end.
Fixpoint nonempty_seq {K} (ms : list (module K)) : Prop :=
  match ms with [] => True | m :: l => nonempty m /\ nonempty_seq l end.
Fixpoint all_sym_seq {K} `{Num K} (ms : list (module K)) : Prop :=
  match ms with [] => True | m :: l => all_sym m /\ all_sym_seq l end.

Section Wval.
  Context {K} `{Num K}.
  Notation T := (tensor K).
  (** The weight-wise result of jTmjp as the API returns it: the full matrix R is cut to one diagonal block
      per parametric layer, nested like the modules; with to_diag one tensor with the whole diagonal. *)
  Definition block (td : bool) (b n off : nat) (R : nat -> nat -> nat -> K) : T :=
    present td b n (fun q i j => R q (off + i) (off + j)).
  Section Ws.
    Variable f : module K -> nat -> value K.
    Fixpoint wvals (ms : list (module K)) (off : nat) : list (value K) :=
      match ms with
      | [] => []
      | m :: ms => match f m off with
                   | VNone => wvals ms (off + n_params m)
                   | v => v :: wvals ms (off + n_params m)
                   end
      end.
  End Ws.
  Fixpoint wval (td : bool) (b : nat) (R : nat -> nat -> nat -> K) (m : module K) (off : nat) {struct m} : value K :=
    match m with
    | Leaf l => if leaf_n_params l =? 0 then VNone else VT (block td b (leaf_n_params l) off R)
    | MaxPool _ => VNone
    | Seq h ms => if n_params m =? 0 then VNone
                  else if td then VT (block true b (n_params m) off R) else VL (wvals (wval td b R) ms off)
    | Skip F => wval td b R F off
    end.
End Wval.

Section Preds.
  Context {K} `{Num K}.
  (** every SkipConnection of the tree contains at least one parameter *)
  Fixpoint skips_param (m : module K) : Prop :=
    match m with
    | Leaf _ | MaxPool _ => True
    | Seq _ ms => (fix go l := match l with [] => True | m :: l => skips_param m /\ go l end) ms
    | Skip F => n_params F <> 0 /\ skips_param F
    end.
  Fixpoint skips_param_seq (ms : list (module K)) : Prop :=
    match ms with [] => True | m :: l => skips_param m /\ skips_param_seq l end.
  Fixpoint fwdable_seq (ms : list (module K)) : Prop :=
    match ms with [] => True | m :: l => fwdable m /\ fwdable_seq l end.
End Preds.

Section LeafAt.
  Context {K} `{Num K}.
  Notation T := (tensor K).
  (** position of the first parameter of the layer that owns parameter p *)
  Section S.
    Variable f : module K -> nat -> nat.
    Fixpoint seq_leaf_at (ms : list (module K)) (p : nat) : nat :=
      match ms with
      | [] => 0
      | m :: ms => if p <? n_params m then f m p else n_params m + seq_leaf_at ms (p - n_params m)
      end.
  End S.
  Fixpoint leaf_at (m : module K) (p : nat) : nat :=
    match m with
    | Leaf _ | MaxPool _ => 0
    | Seq _ ms => seq_leaf_at leaf_at ms p
    | Skip F => leaf_at F p
    end.
  (** the part of a parameter metric within layers *)
  Definition same_layer (la : nat -> nat) (R : nat -> nat -> nat -> K) (q p p' : nat) : K :=
    if la p =? la p' then R q p p' else n0.
  (** the part of R that a diagonal representation keeps *)
  Definition dpart (fd : bool) (R : nat -> nat -> nat -> K) (q p p' : nat) : K :=
    if fd then (if p =? p' then R q p p else n0) else R q p p'.

  (** the ways a parameter metric R can be passed: one tensor, or (nested) lists with one entry per
      parametric module *)
  Inductive rep (fd : bool) (b : nat) (R : nat -> nat -> nat -> K) : module K -> nat -> value K -> Prop :=
  | rep_leaf l off : rep fd b R (Leaf l) off (VT (block fd b (leaf_n_params l) off R))
  | rep_whole h ms off : rep fd b R (Seq h ms) off (VT (block fd b (n_params (Seq h ms)) off R))
  | rep_list h ms off vs : reps fd b R ms off vs -> rep fd b R (Seq h ms) off (VL vs)
  | rep_skip F off v : rep fd b R F off v -> rep fd b R (Skip F) off v
  with reps (fd : bool) (b : nat) (R : nat -> nat -> nat -> K) : list (module K) -> nat -> list (value K) -> Prop :=
  | reps_nil off : reps fd b R [] off []
  | reps_none m ms off vs : n_params m = 0 -> reps fd b R ms off vs -> reps fd b R (m :: ms) off vs
  | reps_cons m ms off v vs : n_params m <> 0 -> rep fd b R m off v -> reps fd b R ms (off + n_params m) vs ->
      reps fd b R (m :: ms) off (v :: vs).
End LeafAt.
Scheme rep_mut := Minimality for rep Sort Prop with reps_mut := Minimality for reps Sort Prop.
Combined Scheme rep_both from rep_mut, reps_mut.
