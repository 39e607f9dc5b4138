(** Model of the torch functions on images that the library calls: F.conv2d, F.conv_transpose2d,
    F.max_pool2d, F.interpolate (nearest) and indexed assignment.  No /repo code here; the uses are
    cited in the layer files. *)
From Coq Require Import String Ascii List Arith ZArith Lia Bool.
From Verif Require Import Scalar Tensor.
Import ListNotations.
Local Open Scope nat_scope.
Local Open Scope list_scope.

(** padding_mode of nn.Conv2d *)
Inductive pmode := PZeros | PCircular | PReplicate | PReflect.

(** Source position (if any) of position [k] of a length-[n] axis padded by [p] on both sides. *)
Definition pad_src (m : pmode) (n p k : nat) : option nat :=
  if (p <=? k) && (k <? n + p) then Some (k - p)
  else match m with
       | PZeros => None
       | PCircular => Some ((k + n - p) mod n)
       | PReplicate => Some (if k <? p then 0 else n - 1)
       | PReflect => Some (if k <? p then p - k else 2 * n - 2 - (k - p))
       end.
(** F.pad refuses these amounts *)
Definition pad_ok (m : pmode) (n p : nat) : bool :=
  match m with
  | PZeros => true
  | PCircular => p <=? n
  | PReplicate => 0 <? n
  | PReflect => (p <? n) || (p =? 0)
  end.

(** output length of a convolution/pooling window along one axis; None when the (dilated) kernel
    does not fit in the padded input *)
Definition out_len (n k s p d : nat) : option nat :=
  if (0 <? k) && (0 <? s) && (0 <? d) && (d * (k - 1) + 1 <=? n + 2 * p)
  then Some ((n + 2 * p - (d * (k - 1) + 1)) / s + 1) else None.

(** output length of a transposed convolution (output_padding 0) *)
Definition tout_len (n k s p d : nat) : option nat :=
  if (0 <? n) && (0 <? k) && (0 <? s) && (0 <? d) && (2 * p <? (n - 1) * s + d * (k - 1) + 1)
  then Some ((n - 1) * s + d * (k - 1) + 1 - 2 * p) else None.

Section Conv.
  Context {K} `{Num K}.
  Notation gt := (get (@n0 K _)).

  (** entry of a padded image *)
  Definition pget (m : pmode) (t : tensor K) (h w ph pw b c : nat) (y x : nat) : K :=
    match pad_src m h ph y, pad_src m w pw x with
    | Some y', Some x' => gt t [b; c; y'; x']
    | _, _ => n0
    end.

  (** conv2d with the padding mode of nn.Conv2d; [PZeros] is F.conv2d itself.
      x : (b, c1, h, w), W : (c2, c1/g, kh, kw), bias : (c2) or absent. *)
  Definition conv2d_mode (m : pmode) (x W : tensor K) (bias : option (tensor K))
    (stride : nat * nat) (padding : nat * nat) (dil : nat * nat) (g : nat) : res (tensor K) :=
    match shape x, shape W with
    | [b; c1; h; w], [c2; cg; kh; kw] =>
        check ((0 <? g)%nat && (c1 =? g * cg)%nat && (c2 mod g =? 0)%nat && (0 <? c2)%nat) RuntimeError
        (check (match bias with None => true | Some t => shape_eqb (shape t) [c2] end) RuntimeError
        (check (pad_ok m h (fst padding) && pad_ok m w (snd padding)) RuntimeError
        (match out_len h kh (fst stride) (fst padding) (fst dil),
               out_len w kw (snd stride) (snd padding) (snd dil) with
         | Some h2, Some w2 =>
             Ok (tab4 b c2 h2 w2 (fun n o y x0 =>
                   let s := bsum cg (fun c => bsum kh (fun u => bsum kw (fun v =>
                              (pget m x h w (fst padding) (snd padding) n (o / (c2 / g) * cg + c)%nat
                                   (y * fst stride + u * fst dil)%nat (x0 * snd stride + v * snd dil)%nat
                              * gt W [o; c; u; v])%K))) in
                   match bias with None => s | Some t => (s + gt t [o])%K end))
         | _, _ => Raise RuntimeError
         end)))
    | _, _ => Raise RuntimeError
    end.

  (** F.conv2d; a negative padding is refused *)
  Definition conv2d (x W : tensor K) (bias : option (tensor K))
    (stride : nat * nat) (padding : Z * Z) (dil : nat * nat) (g : nat) : res (tensor K) :=
    check ((0 <=? fst padding)%Z && (0 <=? snd padding)%Z) RuntimeError
      (conv2d_mode PZeros x W bias stride (Z.to_nat (fst padding), Z.to_nat (snd padding)) dil g).

  (** F.conv_transpose2d without bias and with output_padding 0.
      x : (b, c2, h2, w2), W : (c2, c1/g, kh, kw). *)
  Definition conv_transpose2d (x W : tensor K)
    (stride : nat * nat) (padding : nat * nat) (dil : nat * nat) (g : nat) : res (tensor K) :=
    match shape x, shape W with
    | [b; c2; h2; w2], [c2'; cg; kh; kw] =>
        check ((0 <? g)%nat && (c2 =? c2')%nat && (c2 mod g =? 0)%nat && (0 <? c2)%nat) RuntimeError
        (match tout_len h2 kh (fst stride) (fst padding) (fst dil),
               tout_len w2 kw (snd stride) (snd padding) (snd dil) with
         | Some h1, Some w1 =>
             Ok (tab4 b (g * cg) h1 w1 (fun n c y1 x1 =>
                   bsum (c2 / g) (fun o' => let o := (c / cg * (c2 / g) + o')%nat in
                   bsum h2 (fun y => bsum w2 (fun x2 => bsum kh (fun u => bsum kw (fun v =>
                     if ((y * fst stride + u * fst dil =? y1 + fst padding)
                         && (x2 * snd stride + v * snd dil =? x1 + snd padding))%nat
                     then (gt x [n; o; y; x2] * gt W [o; (c mod cg)%nat; u; v])%K else n0)))))))
         | _, _ => Raise RuntimeError
         end)
    | _, _ => Raise RuntimeError
    end.

  (** *** max_pool2d with return_indices *)
  Record pool_cfg := { pk : nat * nat; ps : nat * nat; pp : nat * nat; pd : nat * nat; pceil : bool }.

  (** output length; with ceil_mode the last window must start inside the input or left padding *)
  Definition pool_len (n k s p d : nat) (ceil : bool) : option nat :=
    if (0 <? k) && (0 <? s) && (0 <? d) && (2 * p <=? d * (k - 1) + 1) && (d * (k - 1) + 1 <=? n + 2 * p)
    then if ceil
         then let o := ((n + 2 * p - (d * (k - 1) + 1) + s - 1) / s + 1)%nat in
              Some (if n + p <=? (o - 1) * s then o - 1 else o)
         else Some ((n + 2 * p - (d * (k - 1) + 1)) / s + 1)%nat
    else None.
  (** input positions of window [o] along one axis: those that are not padding *)
  Definition window (n k s p d o : nat) : list nat :=
    flat_map (fun u => let q := (o * s + u * d)%nat in
                       if (p <=? q) && (q <? n + p) then [q - p] else []) (seq 0 k).
  (** cells of the window, row-major *)
  Definition cells (ys xs : list nat) : list (nat * nat) :=
    flat_map (fun y => map (fun x => (y, x)) xs) ys.
  (** position of the first maximum *)
  Definition argmax (f : nat * nat -> K) (l : list (nat * nat)) : option (nat * nat) :=
    fold_left (fun best c => match best with
                             | None => Some c
                             | Some b => if nltb (f b) (f c) then Some c else Some b
                             end) l None.
  Definition pool_cell (cfg : pool_cfg) (x : tensor K) (h w n c y0 x0 : nat) : option (nat * nat) :=
    argmax (fun q => gt x [n; c; fst q; snd q])
           (cells (window h (fst (pk cfg)) (fst (ps cfg)) (fst (pp cfg)) (fst (pd cfg)) y0)
                  (window w (snd (pk cfg)) (snd (ps cfg)) (snd (pp cfg)) (snd (pd cfg)) x0)).
  (** Values and flat indices (within the h*w plane).  Simplification: a window lying entirely in the
      padding (possible only with dilation > 1 and tiny images, where torch returns -inf) raises. *)
  Definition max_pool4 (cfg : pool_cfg) (x : tensor K) : res (tensor K * tensor nat) :=
    match shape x with
    | [b; c; h; w] =>
        match pool_len h (fst (pk cfg)) (fst (ps cfg)) (fst (pp cfg)) (fst (pd cfg)) (pceil cfg),
              pool_len w (snd (pk cfg)) (snd (ps cfg)) (snd (pp cfg)) (snd (pd cfg)) (pceil cfg) with
        | Some h2, Some w2 =>
            if forallb (fun k => match unravel [b; c; h2; w2] k with
                                 | [n; ch; y0; x0] => match pool_cell cfg x h w n ch y0 x0 with
                                                      | Some _ => true | None => false end
                                 | _ => false end) (seq 0 (numel [b; c; h2; w2]))
            then Ok (tab4 b c h2 w2 (fun n ch y0 x0 =>
                       match pool_cell cfg x h w n ch y0 x0 with
                       | Some (y, x1) => gt x [n; ch; y; x1] | None => n0 end),
                     tab4 b c h2 w2 (fun n ch y0 x0 =>
                       match pool_cell cfg x h w n ch y0 x0 with
                       | Some (y, x1) => (y * w + x1)%nat | None => 0%nat end))
            else Raise RuntimeError
        | _, _ => Raise RuntimeError
        end
    | _ => Raise RuntimeError
    end.

  (** F.max_pool2d(return_indices=True) takes a batch of images or a single image (c, h, w) *)
  Definition max_pool2d (cfg : pool_cfg) (x : tensor K) : res (tensor K * tensor nat) :=
    match shape x with
    | [c; h; w] => '(v, i) <- max_pool4 cfg (unsqueeze0 x) ;; Ok (squeeze0 v, squeeze0 i)
    | _ => max_pool4 cfg x
    end.

  (** F.interpolate(mode='nearest', scale_factor = sn/sd): every dimension after the first two is scaled, so that
      (b, c, h, w) is a batch of images, (b, c, w) a batch of signals and (b, c, d, h, w) a batch of volumes;
      other ranks are refused *)
  Definition upsample_nearest (sn sd : nat) (x : tensor K) : res (tensor K) :=
    match shape x with
    | [b; c; h; w] =>
        let h2 := (h * sn / sd)%nat in let w2 := (w * sn / sd)%nat in
        check ((0 <? sn) && (0 <? sd) && (0 <? h2) && (0 <? w2))%nat RuntimeError
        (Ok (tab4 b c h2 w2 (fun n ch y x0 =>
               gt x [n; ch; Nat.min (y * sd / sn) (h - 1); Nat.min (x0 * sd / sn) (w - 1)]%nat)))
    | [b; c; w] =>
        let w2 := (w * sn / sd)%nat in
        check ((0 <? sn) && (0 <? sd) && (0 <? w2))%nat RuntimeError
        (Ok (tab3 b c w2 (fun n ch x0 => gt x [n; ch; Nat.min (x0 * sd / sn) (w - 1)]%nat)))
    | [b; c; d; h; w] =>
        let d2 := (d * sn / sd)%nat in let h2 := (h * sn / sd)%nat in let w2 := (w * sn / sd)%nat in
        check ((0 <? sn) && (0 <? sd) && (0 <? d2) && (0 <? h2) && (0 <? w2))%nat RuntimeError
        (Ok (tab [b; c; d2; h2; w2] (fun i => match i with
               | [n; ch; z; y; x0] => gt x [n; ch; Nat.min (z * sd / sn) (d - 1); Nat.min (y * sd / sn) (h - 1);
                                            Nat.min (x0 * sd / sn) (w - 1)]%nat
               | _ => n0 end)))
    | _ => Raise NotImplementedError
    end.

  (** dst[i0, i1, ...] = v for index tensors of the shape of v.  Repeated positions: torch leaves the
      result unspecified; on CPU the writes happen in row-major order, so the last one wins. *)
  Definition index_put (dst : tensor K) (idxs : list (tensor nat)) (v : tensor K) : res (tensor K) :=
    check (forallb (fun i => shape_eqb (shape i) (shape v)) idxs) IndexError
    (let pos k := map (fun i => nth k (data i) 0%nat) idxs in
     check (forallb (fun k => forallb (fun p => (fst p <? snd p)%nat) (combine (pos k) (shape dst)))
                    (seq 0 (numel (shape v)))) IndexError
     (Ok (mkT (shape dst)
              (fold_left (fun l k => set_nth (ravel (shape dst) (pos k)) (nth k (data v) n0) l)
                         (seq 0 (numel (shape v))) (data dst))))).
End Conv.
