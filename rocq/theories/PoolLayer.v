(** Model of nnj/maxpool2d.py and nnj/upsample.py. *)
From Coq Require Import String Ascii List Arith ZArith Lia Bool.
From Verif Require Import Scalar Tensor Conv Abstract.
Import ListNotations.
Local Open Scope nat_scope.
Local Open Scope list_scope.

(** *** MaxPool2d.  The layer keeps the indices of its last forward pass in self.idx; the methods
    here take them as an argument and the state passing is in Module.v. *)
Section MaxPool.
  Context {K} `{Num K}.
  Notation gt := (get (@n0 K _)).
  Notation T := (tensor K).
  Implicit Types x : T.

  (** self.idx: reading an attribute of None raises AttributeError *)
  Definition idx_of (idx : option (tensor nat)) : res (tensor nat) :=
    match idx with Some i => Ok i | None => Raise AttributeError end.
  (** torch.repeat_interleave(torch.arange(n), r).reshape(n, r) *)
  Definition arange_rep (n r : nat) : tensor nat := tab2 n r (fun i _ => i).

  (** maxpool2d.py:78-107, after val is known *)
  Definition pool_jmp (idx : option (tensor nat)) x (val m : T) : res T :=
    '(b, c1, h1, w1) <- unpack4 x ;;
    '(_, c2, h2, w2) <- unpack4 val ;;
    m0 <- size 0 m ;; m1 <- size 1 m ;;
    check (Nat.eqb m0 b) AssertionError
    (check (Nat.eqb m1 (c1 * h1 * w1)) AssertionError
    (mm <- reshape [b * c1; h1 * w1; c1; h1; w1] m ;;
     idx <- idx_of idx ;;
     (* matrix[arange_repeated, idx, :, :, :]: arange_repeated has b*c1*h2*w2 entries *)
     let n := b * c1 * (h2 * w2) in
     (* the two index tensors must have the same length (broadcasting of length 1 not modelled) *)
     check (Nat.eqb (numel (shape idx)) n) IndexError
     (check (forallb (fun k => Nat.ltb k (h1 * w1)) (data idx)) IndexError
     (let g := tab4 n c1 h1 w1 (fun k c y q => gt mm [k / (h2 * w2); nth k (data idx) 0; c; y; q]) in
      g <- reshape (shape val ++ [c1; h1; w1])%list g ;;
      m2 <- size 2 m ;;
      reshape [b; c2 * h2 * w2; m2] g)))).
  (** maxpool2d.py:30-54, wrt input, after val is known *)
  Definition pool_jacobian (idx : option (tensor nat)) x (val : T) : res T :=
    '(b, c1, h1, w1) <- unpack4 x ;;
    '(_, c2, h2, w2) <- unpack4 val ;;
    check (Nat.eqb c1 c2) AssertionError
    (id <- diag_embed (ones [b; c1 * h1 * w1]) ;; pool_jmp idx x val id).

  (** maxpool2d.py:150-182, wrt input, after val is known *)
  Definition pool_vjp (idx : option (tensor nat)) x (val vec : T) : res T :=
    '(b, c1, h1, w1) <- unpack4 x ;;
    '(_, c2, h2, w2) <- unpack4 val ;;
    check (Nat.eqb c1 c2) AssertionError
    (check (shape_eqb (shape vec) [b; c2 * h2 * w2]) AssertionError
    (vec <- reshape [b * c2; h2 * w2] vec ;;
     idx <- idx_of idx ;;
     idx <- reshape [b * c2; h2 * w2] idx ;;
     r <- index_put (zeros [b * c2; h1 * w1]) [arange_rep (b * c2) (h2 * w2); idx] vec ;;
     reshape [b; c1 * h1 * w1] r)).

  (** maxpool2d.py:185-221, wrt input, after val is known *)
  Definition pool_mjp (idx : option (tensor nat)) x (val m : T) : res T :=
    '(b, c1, h1, w1) <- unpack4 x ;;
    '(_, c2, h2, w2) <- unpack4 val ;;
    check (Nat.eqb c1 c2) AssertionError
    (m0 <- size 0 m ;; m2 <- size 2 m ;;
     check (Nat.eqb m0 b && Nat.eqb m2 (c2 * h2 * w2)) AssertionError
     (rows <- size 1 m ;;
      mm <- reshape [b * rows * c2; h2 * w2] m ;;
      idx <- idx_of idx ;;
      idx <- reshape [b; c2; h2 * w2] idx ;;
      idx <- reshape [b * rows * c2; h2 * w2] (expand_dim 0 1 rows (unsqueeze 1 idx)) ;;
      r <- index_put (zeros [b * rows * c1; h1 * w1]) [arange_rep (b * rows * c2) (h2 * w2); idx] mm ;;
      reshape [b; rows; c1 * h1 * w1] r)).

  (** maxpool2d.py:250-273, full -> full *)
  Definition pool_jTmjp_full (idx : option (tensor nat)) x (val m : T) : res T :=
    '(b, c1, h1, w1) <- unpack4 x ;;
    '(_, c2, h2, w2) <- unpack4 val ;;
    let n := h2 * w2 in
    m <- reshape [b; c1; n; c1; n] m ;;
    m <- reshape [b * c1 * c1; n; n] (movedim n0 [-2]%Z [-3]%Z m) ;;
    let ar := tab3 (b * c1 * c1) n n (fun i _ _ => i) in
    idx <- idx_of idx ;;
    idx <- reshape [b; c1; n] idx ;;
    let idx := expand_dim 0 2 n (unsqueeze 2 idx) in
    idx_col <- reshape [b * c1 * c1; n; n] (expand_dim 0 1 c1 (unsqueeze 1 idx)) ;;
    idx_row <- reshape [b * c1 * c1; n; n] (expand_dim 0 2 c1 (unsqueeze 2 idx)) ;;
    let idx_row := movedim 0 [-1]%Z [-2]%Z idx_row in
    r <- index_put (zeros [b * c1 * c1; h1 * w1; h1 * w1]) [ar; idx_row; idx_col] m ;;
    r <- reshape [b; c1; c1; h1 * w1; h1 * w1] r ;;
    reshape [b; c1 * h1 * w1; c1 * h1 * w1] (movedim n0 [-2]%Z [-3]%Z r).
  (** maxpool2d.py:288-301, diag -> diag *)
  Definition pool_jTmjp_dd (idx : option (tensor nat)) x (val m : T) : res T :=
    '(b, c1, h1, w1) <- unpack4 x ;;
    '(_, c2, h2, w2) <- unpack4 val ;;
    ar <- reshape [b * c2; h2 * w2] (arange_rep (b * c1) (h2 * w2)) ;;
    idx <- idx_of idx ;;
    idx <- reshape [b * c2; h2 * w2] idx ;;
    z <- reshape [b * c1; h1 * w1] (zeros (shape x)) ;;
    mm <- reshape [b * c2; h2 * w2] m ;;
    r <- index_put z [ar; idx] mm ;;
    reshape [b; c1 * h1 * w1] r.
  (** maxpool2d.py:224-304, after val is known *)
  Definition pool_jTmjp (idx : option (tensor nat)) x (val : T) (mat : option T) w
    (from_diag to_diag diag_backprop : bool) : res (option T) :=
    '(b, c1, h1, w1) <- unpack4 x ;;
    '(_, c2, h2, w2) <- unpack4 val ;;
    check (Nat.eqb c1 c2) AssertionError
    ('(m, from_diag) <- match mat with
                        | Some m => Ok (m, from_diag)
                        | None => m <- flat b (ones (shape val)) ;; Ok (m, true)
                        end ;;
     check (shape_eqb (shape m) (if from_diag then [b; c2 * h2 * w2]
                                 else [b; c2 * h2 * w2; c2 * h2 * w2])) AssertionError
     (match w with
      | Input =>
          match from_diag, to_diag with
          | false, false => some (pool_jTmjp_full idx x val m)
          | true, false => some (d <- diag_embed m ;; pool_jTmjp_full idx x val d)
          | false, true => some (f <- pool_jTmjp_full idx x val m ;; diagonal12 f)
          | true, true => some (pool_jTmjp_dd idx x val m)
          end
      | _ => Ok None
      end)).
End MaxPool.

(** *** Upsample: nn.Upsample(scale_factor = sn/sd, mode='nearest').  Simplification: nearest mode with
    a rational scale factor (the other modes and the size= argument are not modelled). *)
Section Upsample.
  Context {K} `{Num K}.
  Notation gt := (get (@n0 K _)).
  Notation T := (tensor K).
  Variables sn sd : nat.
  Implicit Types x : T. Implicit Types val : option T.

  Definition up_forward x : res T := upsample_nearest sn sd x.
  Definition up_val x val : res T := match val with Some v => Ok v | None => up_forward x end.
  (** int(self.scale_factor) *)
  Definition iscale : nat := sn / sd.
  (** F.conv2d(..., weight=ones(1, 1, s, s), stride=s, padding=0) *)
  Definition up_conv (a : T) : res T :=
    conv2d a (ones [1; 1; iscale; iscale]) None (iscale, iscale) (0, 0)%Z (1, 1) 1.

  (** upsample.py:154-190 with a given matrix, wrt input, after val is known *)
  Definition up_mjp_some x (val m : T) : res T :=
    '(b, c1, h1, w1) <- unpack4 x ;;
    '(_, c2, h2, w2) <- unpack4 val ;;
    check (Nat.eqb c1 c2) AssertionError
    (m0 <- size 0 m ;; m2 <- size 2 m ;;
     check (Nat.eqb m0 b && Nat.eqb m2 (c2 * h2 * w2)) AssertionError
     (rows <- size 1 m ;;
      mm <- reshape [b * rows * c2; 1; h2; w2] m ;;
      r <- up_conv mm ;;
      reshape [b; rows; c2 * h1 * w1] r)).
  (** upsample.py:16-35 *)
  Definition up_jacobian x val w : res (option T) :=
    match w with
    | Input =>
        val <- up_val x val ;;
        '(b, c1, h1, w1) <- unpack4 x ;;
        '(_, c2, h2, w2) <- unpack4 val ;;
        check (Nat.eqb c1 c2) AssertionError
        (id <- diag_embed (ones [b; c2 * h2 * w2]) ;; some (up_mjp_some x val id))
    | _ => Ok None
    end.
  (** upsample.py:154-190 *)
  Definition up_mjp x val (mat : option T) w : res (option T) :=
    match mat with
    | None => up_jacobian x val w
    | Some m => match w with
                | Input => val <- up_val x val ;; some (up_mjp_some x val m)
                | _ => Ok None
                end
    end.
  (** upsample.py:42-56 *)
  Definition up_jvp x val (vec : T) w : res (option T) :=
    match w with Input => Raise NotImplementedError | _ => Ok None end.
  (** upsample.py:59-75 *)
  Definition up_jmp x val (mat : option T) w : res (option T) :=
    match mat with
    | None => up_jacobian x val w
    | Some _ => match w with Input => Raise NotImplementedError | _ => Ok None end
    end.
  (** upsample.py:78-111 *)
  Definition up_jmjTp x val (mat : option T) w (from_diag to_diag diag_backprop : bool) : res (option T) :=
    _ <- up_val x val ;;
    match w with Input => Raise NotImplementedError | _ => Ok None end.
  (** upsample.py:118-151 *)
  Definition up_vjp x val (vec : T) w : res (option T) :=
    match w with
    | Input =>
        val <- up_val x val ;;
        '(b, c1, h1, w1) <- unpack4 x ;;
        '(_, c2, h2, w2) <- unpack4 val ;;
        check (Nat.eqb c1 c2) AssertionError
        (check (shape_eqb (shape vec) [b; c2 * h2 * w2]) AssertionError
        (v <- reshape [b * c2; 1; h2; w2] vec ;;
         r <- up_conv v ;;
         some (reshape [b; c1 * h1 * w1] r)))
    | _ => Ok None
    end.
  (** upsample.py:219-254, full -> full *)
  Definition up_jTmjp_full x (val m : T) : res T :=
    '(b, c1, h1, w1) <- unpack4 x ;;
    '(_, c2, h2, w2) <- unpack4 val ;;
    m <- reshape [b; c2; h2 * w2; c2; h2 * w2] m ;;
    m <- reshape [b * c2 * c2 * h2 * w2; 1; h2; w2] (movedim n0 [2%Z] [3%Z] m) ;;
    mJ <- up_conv m ;;
    mJ <- reshape [b * c2 * c2; h2 * w2; h1 * w1] mJ ;;
    Jm <- reshape [b * c2 * c2 * h1 * w1; 1; h2; w2] (movedim n0 [-1]%Z [-2]%Z mJ) ;;
    r <- up_conv Jm ;;
    r <- reshape [b * c2 * c2; h1 * w1; h1 * w1] r ;;
    r <- reshape [b; c2; c2; h1 * w1; h1 * w1] (movedim n0 [-1]%Z [-2]%Z r) ;;
    reshape [b; c2 * h1 * w1; c2 * h1 * w1] (movedim n0 [2%Z] [3%Z] r).
  (** upsample.py:269-283, diag -> diag *)
  Definition up_jTmjp_dd x (val m : T) : res T :=
    '(b, c1, h1, w1) <- unpack4 x ;;
    '(_, c2, h2, w2) <- unpack4 val ;;
    m <- reshape [b * c2; 1; h2; w2] m ;;
    r <- up_conv m ;;
    reshape [b; c1 * h1 * w1] r.
  (** upsample.py:193-286 *)
  Definition up_jTmjp x val (mat : option T) w (from_diag to_diag diag_backprop : bool) : res (option T) :=
    val <- up_val x val ;;
    '(b, c1, h1, w1) <- unpack4 x ;;
    '(_, c2, h2, w2) <- unpack4 val ;;
    check (Nat.eqb c1 c2) AssertionError
    ('(m, from_diag) <- match mat with
                        | Some m => Ok (m, from_diag)
                        | None => m <- flat b (ones (shape val)) ;; Ok (m, true)
                        end ;;
     check (shape_eqb (shape m) (if from_diag then [b; c2 * h2 * w2]
                                 else [b; c2 * h2 * w2; c2 * h2 * w2])) AssertionError
     (match w with
      | Input =>
          match from_diag, to_diag with
          | false, false => some (up_jTmjp_full x val m)
          | true, false => some (d <- diag_embed m ;; up_jTmjp_full x val d)
          | false, true => some (f <- up_jTmjp_full x val m ;; diagonal12 f)
          | true, true => some (up_jTmjp_dd x val m)
          end
      | _ => Ok None
      end)).
End Upsample.
