(** Closed formulas for the Jacobians of the layers and of module trees, and the invariant of the hidden
    state.  These are proof devices: the property theorems do not mention them. *)
From Coq Require Import String Ascii List Arith ZArith Lia Bool.
From Verif Require Import Scalar Sums Tensor Conv Abstract Simple LinearLayer ConvLayer PoolLayer Module Spec.
From Verif Require Export Domain.
Import ListNotations.
Local Open Scope nat_scope.
Local Open Scope list_scope.

Section Jac.
  Context {K} `{Num K}.
  Notation gt := (get (@n0 K _)).
  Notation T := (tensor K).
  Notation J3 := (nat -> nat -> nat -> K).

  (** entry i of sample q of a batch of samples with n entries each *)
  Definition fl (n : nat) (t : T) (q i : nat) : K := nth (q * n + i) (data t) n0.
  (** entries per sample *)
  Definition per (t : T) : nat := numel (tl (shape t)).

  (** derivative formulas of the activations as functions of the input *)
  Definition act_d (a : act K) (v : K) : K :=
    match a with
    | Tanh => nsub n1 (nmul (ntanh v) (ntanh v))
    | ReLU => npos (if nltb n0 v then v else n0)
    | Sigmoid => nmul (sigmoid v) (nsub n1 (sigmoid v))
    | Sinusoidal => ncos v
    | Softplus beta thr => sigmoid (nmul beta v)
    | TruncExp => nexp (clamp15 v)
    end.

  Definition lin_JW (c1 c2 : nat) (x : T) : J3 := fun q i p =>
    if p <? c2 * c1 then nmul (delta i (p / c1)) (gt x [q; p mod c1]) else delta i (p - c2 * c1).

  Definition l2_norm (n : nat) (x : T) (q : nat) : K :=
    nsqrt (bsum n (fun j => nmul (fl n x q j) (fl n x q j))).
  Definition l2_JX (eps : K) (n : nat) (x : T) : J3 := fun q i j =>
    let c := ndiv n1 (nadd (l2_norm n x q) eps) in
    nmul c (nsub (delta i j) (nmul (nmul c (fl n x q i)) (nmul c (fl n x q j)))).

  (** input entry read by output entry i of nearest up-sampling by k *)
  Definition up_src (k h w i : nat) : nat :=
    let h2 := h * k in let w2 := w * k in
    (i / (h2 * w2)) * (h * w) + (i mod (h2 * w2) / w2 / k) * w + (i mod w2) / k.

  (** convolution: output entry i = (o, y, x), input entry j = (c, y1, x1) *)
  Definition conv_JX (W : T) (kh kw ph pw h1 w1 h2 w2 : nat) : J3 := fun _ i j =>
    let o := i / (h2 * w2) in let y := i mod (h2 * w2) / w2 in let x := i mod w2 in
    let c := j / (h1 * w1) in let y1 := j mod (h1 * w1) / w1 in let x1 := j mod w1 in
    bsum kh (fun u => bsum kw (fun v =>
      if (y + u =? y1 + ph) && (x + v =? x1 + pw) then gt W [o; c; u; v] else n0)).
  (** parameter entry p = (o', c, u, v) or bias entry *)
  Definition conv_JW (x : T) (c1 c2 kh kw ph pw h1 w1 h2 w2 : nat) : J3 := fun q i p =>
    let o := i / (h2 * w2) in let y := i mod (h2 * w2) / w2 in let x2 := i mod w2 in
    if p <? c2 * c1 * kh * kw then
      nmul (delta o (p / (c1 * kh * kw)))
           (pget PZeros x h1 w1 ph pw q (p mod (c1 * kh * kw) / (kh * kw))
                 (y + p mod (kh * kw) / kw) (x2 + p mod kw))
    else delta o (p - c2 * c1 * kh * kw).

  Definition leaf_JX (l : leaf K) (x : T) : J3 :=
    match l with
    | Linear W _ => fun _ i j => gt W [i; j]
    | Conv2d cfg W _ =>
        let h1 := dim x 2 in let w1 := dim x 3 in
        let ph := fst (cpad cfg) in let pw := snd (cpad cfg) in
        conv_JX W (kh W) (kw W) ph pw h1 w1 (h1 + 2 * ph - kh W + 1) (w1 + 2 * pw - kw W + 1)
    | Act a => fun q i j => nmul (delta i j) (act_d a (fl (per x) x q i))
    | Flatten | Reshape _ => fun _ i j => delta i j
    | L2Norm e => l2_JX e (per x) x
    | Upsample sn sd => fun _ i j => delta (up_src (sn / sd) (dim x 2) (dim x 3) i) j
    | Custom c => fun q i j => match cu_jacobian c x None Input with
                               | Ok (Some t) => gt t [q; i; j] | _ => n0 end
    end.
  Definition leaf_JW (l : leaf K) (x : T) : J3 :=
    match l with
    | Linear W _ => lin_JW (dim W 1) (dim W 0) x
    | Conv2d cfg W _ =>
        let h1 := dim x 2 in let w1 := dim x 3 in
        let ph := fst (cpad cfg) in let pw := snd (cpad cfg) in
        conv_JW x (dim W 1) (dim W 0) (kh W) (kw W) ph pw h1 w1
                (h1 + 2 * ph - kh W + 1) (w1 + 2 * pw - kw W + 1)
    | _ => fun _ _ _ => n0
    end.

  Definition pool_src (cfg : pool_cfg) (x : T) (q i : nat) : nat :=
    let h := dim x 2 in let w := dim x 3 in
    match pool_len h (fst (pk cfg)) (fst (ps cfg)) (fst (pp cfg)) (fst (pd cfg)) (pceil cfg),
          pool_len w (snd (pk cfg)) (snd (ps cfg)) (snd (pp cfg)) (snd (pd cfg)) (pceil cfg) with
    | Some h2, Some w2 =>
        let c := i / (h2 * w2) in
        match pool_cell cfg x h w q c (i mod (h2 * w2) / w2) (i mod w2) with
        | Some (y, x1) => c * (h * w) + y * w + x1
        | None => 0
        end
    | _, _ => 0
    end.

  Section SeqJX.
    Variable jx : module K -> T -> J3.
    Fixpoint seq_JX (ms : list (module K)) (x : T) : J3 :=
      match ms with
      | [] => fun _ i j => delta i j
      | m :: ms =>
          match fwd m x with
          | Ok y => let J := seq_JX ms y in
                    fun q i j => bsum (per y) (fun k => nmul (J q i k) (jx m x q k j))
          | Raise _ => fun _ _ _ => n0
          end
      end.
  End SeqJX.
  Fixpoint JX (m : module K) (x : T) : J3 :=
    match m with
    | Leaf l => leaf_JX l x
    | MaxPool cfg => fun q i j => delta (pool_src cfg x q i) j
    | Seq _ ms => seq_JX JX ms x
    | Skip F => fun q i j => if i <? per x then delta i j else JX F x q (i - per x) j
    end.
  Section SeqJW.
    Variable jw : module K -> T -> J3.
    Fixpoint seq_JW (ms : list (module K)) (x : T) : J3 :=
      match ms with
      | [] => fun _ _ _ => n0
      | m :: ms =>
          match fwd m x with
          | Ok y => fun q i p =>
              if p <? n_params m
              then bsum (per y) (fun k => nmul (seq_JX JX ms y q i k) (jw m x q k p))
              else seq_JW ms y q i (p - n_params m)
          | Raise _ => fun _ _ _ => n0
          end
      end.
  End SeqJW.
  Fixpoint JW (m : module K) (x : T) : J3 :=
    match m with
    | Leaf l => leaf_JW l x
    | MaxPool _ => fun _ _ _ => n0
    | Seq _ ms => seq_JW JW ms x
    | Skip F => fun q i p => if i <? per x then n0 else JW F x q (i - per x) p
    end.

  (** *** The hidden state describes the forward pass at x. *)
  Section CohSeq.
    Variable c : module K -> st K -> T -> Prop.
    Fixpoint coh_seq (ms : list (module K)) (ks : list (st K)) (fm : list T) (x : T) : Prop :=
      match ms with
      | [] => ks = [] /\ exists r, fm = x :: r
      | m :: ms => exists k ks' fm' y, ks = k :: ks' /\ fm = x :: fm' /\ fwd m x = Ok y /\
                     c m k x /\ coh_seq ms ks' fm' y
      end.
  End CohSeq.
  Fixpoint coh (m : module K) (s : st K) (x : T) : Prop :=
    match m with
    | Leaf _ => True
    | MaxPool cfg => exists v i, max_pool2d cfg x = Ok (v, i) /\ st_idx s = Some i
    | Seq h ms => h = true /\ coh_seq coh ms (st_kids s) (st_fm s) x
    | Skip F => st_kids s = [st_kid s] /\ coh F (st_kid s) x
    end.
End Jac.
