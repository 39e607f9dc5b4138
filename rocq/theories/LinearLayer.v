(** Model of nnj/linear.py. *)
From Coq Require Import String Ascii List Arith ZArith Lia Bool.
From Verif Require Import Scalar Tensor Abstract.
Import ListNotations.
Local Open Scope nat_scope.
Local Open Scope list_scope.
Local Open Scope string_scope.

Section Linear.
  Context {K} `{Num K}.
  Notation gt := (get (@n0 K _)).
  Notation T := (tensor K).
  (** self.weight : (out, in), self.bias : (out) or None *)
  Variables (W : T) (bias : option T).
  Implicit Types x : T. Implicit Types val : option T.

  (** linear.py:12 *)
  Definition lin_n_params : nat :=
    numel (shape W) + match bias with Some t => numel (shape t) | None => 0 end.

  (** nn.Linear.forward (linear.py:9 inherits it): F.linear maps the last dimension and keeps the others.
      A matrix has its own branch; an input without dimensions raises. *)
  Definition lin_forward x : res T :=
    match shape x, shape W with
    | [b; c1], [c2; c1'] =>
        check (Nat.eqb c1 c1') RuntimeError
        (check (match bias with Some t => shape_eqb (shape t) [c2] | None => true end) RuntimeError
        (Ok (tab2 b c2 (fun n k =>
               let s := bsum c1 (fun j => (gt x [n; j] * gt W [k; j])%K) in
               match bias with Some t => (s + gt t [k])%K | None => s end))))
    | _ :: _, [c2; c1'] =>
        let c1 := last (shape x) 0 in
        check (Nat.eqb c1 c1') RuntimeError
        (check (match bias with Some t => shape_eqb (shape t) [c2] | None => true end) RuntimeError
        (Ok (tab (removelast (shape x) ++ [c2]) (fun idx =>
               let n := removelast idx in let k := last idx 0 in
               let s := bsum c1 (fun j => (gt x (n ++ [j]) * gt W [k; j])%K) in
               match bias with Some t => (s + gt t [k])%K | None => s end))))
    | _, _ => Raise RuntimeError
    end.
  Definition lin_val x val : res T := match val with Some v => Ok v | None => lin_forward x end.

  (** linear.py:15-33 *)
  Definition lin_jacobian x val w : res (option T) :=
    '(b, c1) <- unpack2 x ;;
    match w with
    | Input => Ok (Some (expand_dim n0 0 b (unsqueeze0 W)))
    | Weight =>
        val <- lin_val x val ;;
        c2 <- size 1 val ;;
        eye <- diag_embed (ones [c2]) ;;
        j <- einsum "bk,ij->bijk" [x; eye] ;;
        j <- reshape [b; c2; c2 * c1] j ;;
        match bias with
        | Some _ => some (cat n0 2 [j; expand_dim n0 0 b (unsqueeze0 eye)])
        | None => Ok (Some j)
        end
    | Other => Ok None
    end.

  (** linear.py:40-61 *)
  Definition lin_jvp x val (vec : T) w : res (option T) :=
    match w with
    | Input => some (einsum "kj,bj->bk" [W; vec])
    | Weight =>
        '(b, c1) <- unpack2 x ;;
        val <- lin_val x val ;;
        c2 <- size 1 val ;;
        p <- size 1 vec ;;
        check (Nat.eqb lin_n_params p) AssertionError
        (match bias with
         | None => v <- reshape [b; c2; c1] vec ;; some (einsum "bkj,bj->bk" [v; x])
         | Some _ => v <- slice n0 1 0 (c2 * c1) vec ;; v <- reshape [b; c2; c1] v ;;
                     e <- einsum "bkj,bj->bk" [v; x] ;;
                     r <- slice_from n0 1 (c2 * c1) vec ;; some (tadd e r)
         end)
    | Other => Ok None
    end.

  (** linear.py:64-90 *)
  Definition lin_jmp x val (mat : option T) w : res (option T) :=
    match mat with
    | None => lin_jacobian x val w
    | Some m =>
        match w with
        | Input => some (einsum "kj,bji->bki" [W; m])
        | Weight =>
            '(b, c1) <- unpack2 x ;;
            val <- lin_val x val ;;
            c2 <- size 1 val ;;
            p <- size 1 m ;;
            check (Nat.eqb lin_n_params p) AssertionError
            (match bias with
             | None => v <- reshape_m1 [b; c2; c1] m ;; some (einsum "bkji,bj->bki" [v; x])
             | Some _ => v <- slice n0 1 0 (c2 * c1) m ;; v <- reshape_m1 [b; c2; c1] v ;;
                         e <- einsum "bkji,bj->bki" [v; x] ;;
                         r <- slice_from n0 1 (c2 * c1) m ;; some (tadd e r)
             end)
        | Other => Ok None
        end
    end.

  (** linear.py:128-134, full -> full with respect to the weight *)
  Definition lin_jmjTp_full x (val m : T) : res T :=
    mT <- transpose12 n0 m ;;
    a <- lin_jmp x (Some val) (Some mT) Weight ;; a <- need a ;;
    a <- transpose12 n0 a ;;
    r <- lin_jmp x (Some val) (Some a) Weight ;; need r.
  (** linear.py:135-147 and 152-164: the diagonal of the result, from a diagonal *)
  Definition lin_jmjTp_diag x (val m : T) : res T :=
    '(bs, _) <- unpack2 m ;;
    c1 <- size 1 x ;;
    c2 <- size 1 val ;;
    x_sq <- tmul x x ;;
    match bias with
    | None => v <- reshape [bs; c2; c1] m ;; einsum "bi,bji->bj" [x_sq; v]
    | Some _ => v <- slice n0 1 0 (c2 * c1) m ;; v <- reshape [bs; c2; c1] v ;;
                e <- einsum "bi,bji->bj" [x_sq; v] ;;
                r <- slice_from n0 1 (c2 * c1) m ;; tadd e r
    end.
  (** linear.py:93-164 *)
  Definition lin_jmjTp x val (mat : option T) w (from_diag to_diag diag_backprop : bool) : res (option T) :=
    val <- lin_val x val ;;
    match w with
    | Input =>
        let '(m, from_diag) := match mat with Some m => (m, from_diag) | None => (ones (shape x), true) end in
        match from_diag, to_diag with
        | false, false => some (einsum "mn,bnj,kj->bmk" [W; m; W])
        | true, false => some (einsum "mn,bn,kn->bmk" [W; m; W])
        | false, true => some (einsum "mn,bnj,mj->bm" [W; m; W])
        | true, true => some (einsum "mn,bn,mn->bm" [W; m; W])
        end
    | Weight =>
        '(m, from_diag) <- match mat with
                           | Some m => Ok (m, from_diag)
                           | None => b <- size 0 x ;; Ok (ones [b; lin_n_params], true)
                           end ;;
        match from_diag, to_diag with
        | false, false => some (lin_jmjTp_full x val m)
        | true, false => some (d <- lin_jmjTp_diag x val m ;; diag_embed d)
        | false, true => some (f <- lin_jmjTp_full x val m ;; einsum "bii -> bi" [f])
        | true, true => some (lin_jmjTp_diag x val m)
        end
    | Other => Ok None
    end.

  (** linear.py:171-188 *)
  Definition lin_vjp x val (vec : T) w : res (option T) :=
    match w with
    | Input => some (einsum "bj,jk->bk" [vec; W])
    | Weight =>
        '(b, l) <- unpack2 x ;;
        e <- einsum "bi,bj->bij" [vec; x] ;;
        e <- reshape_m1 [b] e ;;
        match bias with
        | None => Ok (Some e)
        | Some _ => some (cat n0 1 [e; vec])
        end
    | Other => Ok None
    end.

  (** linear.py:191-212 *)
  Definition lin_mjp x val (mat : option T) w : res (option T) :=
    match mat with
    | None => lin_jacobian x val w
    | Some m =>
        match w with
        | Input => some (einsum "bij,jk->bik" [m; W])
        | Weight =>
            '(b, c1) <- unpack2 x ;;
            r <- size 1 m ;;
            b' <- size 0 m ;;
            check (Nat.eqb b b') AssertionError
            (e <- einsum "bri,bj->brij" [m; x] ;;
             e <- reshape_m1 [b; r] e ;;
             match bias with
             | None => Ok (Some e)
             | Some _ => some (cat n0 2 [e; m])
             end)
        | Other => Ok None
        end
    end.

  (** linear.py:247-253, full -> full with respect to the weight *)
  Definition lin_jTmjp_full x (val m : T) : res T :=
    mT <- transpose12 n0 m ;;
    a <- lin_mjp x (Some val) (Some mT) Weight ;; a <- need a ;;
    a <- transpose12 n0 a ;;
    r <- lin_mjp x (Some val) (Some a) Weight ;; need r.
  (** linear.py:254-272, diag -> full *)
  Definition lin_jTmjp_df x (m : T) : res T :=
    '(bs, c1) <- unpack2 x ;;
    c2 <- size 1 m ;;
    xo <- einsum "bi,bj->bij" [x; x] ;;
    m <- diag_embed m ;;
    first <- einsum "bij,bkq->bkiqj" [xo; m] ;;
    first <- reshape [bs; c1 * c2; c1 * c2] first ;;
    match bias with
    | None => Ok first
    | Some _ =>
        od <- einsum "bi,bjk->bjik" [x; m] ;;
        od <- reshape [bs; c1 * c2; c2] od ;;
        r1 <- cat n0 2 [first; od] ;;
        odT <- transpose12 n0 od ;;
        r2 <- cat n0 2 [odT; m] ;;
        cat n0 1 [r1; r2]
    end.
  (** linear.py:273-286, full -> diag *)
  Definition lin_jTmjp_fd x (m : T) : res T :=
    '(bs, _, _) <- unpack3 m ;;
    x_sq <- tmul x x ;;
    e <- einsum "bj,bii->bij" [x_sq; m] ;;
    e <- reshape_m1 [bs] e ;;
    match bias with
    | None => Ok e
    | Some _ => d <- einsum "bii->bi" [m] ;; cat n0 1 [e; d]
    end.
  (** linear.py:287-294, diag -> diag *)
  Definition lin_jTmjp_dd x (m : T) : res T :=
    '(bs, _) <- unpack2 m ;;
    x_sq <- tmul x x ;;
    e <- einsum "bj,bi->bij" [x_sq; m] ;;
    e <- reshape_m1 [bs] e ;;
    match bias with
    | None => Ok e
    | Some _ => cat n0 1 [e; m]
    end.
  (** linear.py:215-294 *)
  Definition lin_jTmjp x val (mat : option T) w (from_diag to_diag diag_backprop : bool) : res (option T) :=
    val <- lin_val x val ;;
    let '(m, from_diag) := match mat with Some m => (m, from_diag) | None => (ones (shape val), true) end in
    match w with
    | Input =>
        match from_diag, to_diag with
        | false, false => some (einsum "nm,bnj,jk->bmk" [W; m; W])
        | true, false => some (einsum "nm,bn,nk->bmk" [W; m; W])
        | false, true => some (einsum "nm,bnj,jm->bm" [W; m; W])
        | true, true => some (einsum "nm,bn,nm->bm" [W; m; W])
        end
    | Weight =>
        match from_diag, to_diag with
        | false, false => some (lin_jTmjp_full x val m)
        | true, false => some (lin_jTmjp_df x m)
        | false, true => some (lin_jTmjp_fd x m)
        | true, true => some (lin_jTmjp_dd x m)
        end
    | Other => Ok None
    end.
End Linear.
