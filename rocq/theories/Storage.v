(** A third model of the composite modules of nnj, in which tensors live in storages that views share
    and that in-place operations change: nnj/sequential.py, nnj/skipconnection.py, nnj/maxpool2d.py,
    nnj/flatten.py, nnj/reshape.py.

    The memory is a list of storages.  A tensor object is a reference: a storage and, for each entry of
    the tensor, the position it has in the storage.  Slices, transposes, reshapes and diagonals of a
    tensor are references to the same storage; everything else torch computes is a new storage.  The
    only in-place operations of the library on a tensor that outlives the call are the three "+=" of
    sequential.py:78, 117 and 210 (the indexed writes of conv2d.py and maxpool2d.py go into tensors of
    zeros made by the same function).  The definitions are those of Module.v otherwise, and follow the
    same lines of /repo; a layer computes its result from the values its arguments hold.

    Simplifications: the parameters stay in the module tree, as in Module.v; a view of a parameter (the
    result of Linear.jacobian for the input, linear.py:24) is a storage of its own marked [par], and an
    in-place operation on it is recorded in the memory.  What a custom layer returns is a new storage. *)
From Coq Require Import String Ascii List Arith ZArith Lia Bool.
From Verif Require Import Scalar Tensor Conv Abstract Simple LinearLayer ConvLayer PoolLayer Module.
Import ListNotations.
Local Open Scope nat_scope.
Local Open Scope list_scope.
Local Open Scope string_scope.

(** a tensor object: its storage, the position of each of its entries there ([None] only in the entries
    that an ill-formed tensor lacks), and whether it is a view of a parameter *)
Record ref := mkref { rl : nat; rix : tensor (option nat); par : bool }.

(** what holds where every entry is mapped *)
Definition tmap {A B} (f : A -> B) (t : tensor A) : tensor B := mkT (shape t) (map f (data t)).

(** length and shape agree; always so for a torch tensor *)
Definition wfb {A} (t : tensor A) : bool := Nat.eqb (List.length (data t)) (numel (shape t)).

(** two positions of a view are the same: torch refuses to write to such a view *)
Definition oeqb (a b : option nat) : bool :=
  match a, b with Some i, Some j => Nat.eqb i j | None, None => true | _, _ => false end.
Fixpoint nodupb (l : list (option nat)) : bool :=
  match l with [] => true | a :: l => negb (existsb (oeqb a) l) && nodupb l end.

Section Storage.
  Context {K} `{Num K}.
  Notation T := (tensor K).

  (** the storages, and whether a parameter has been written to *)
  Record mem := mkmem { stores : list (list K); touched : bool }.
  Definition len (g : mem) : nat := List.length (stores g).
  Definition store (g : mem) (l : nat) : list K := nth l (stores g) [].
  (** one entry *)
  Definition look (d : list K) (i : option nat) : K := match i with Some i => nth i d n0 | None => n0 end.
  (** the value a tensor object has *)
  Definition rd (g : mem) (r : ref) : T := tmap (look (store g (rl r))) (rix r).
  Definition rdo (g : mem) (o : option ref) : option T := option_map (rd g) o.

  (** a new storage for the result of an operation *)
  Definition alloc (g : mem) (t : T) : mem * ref :=
    (mkmem (stores g ++ [data t]) (touched g),
     mkref (len g) (mkT (shape t) (map Some (seq 0 (List.length (data t))))) false).
  Definition fresh (g : mem) (r : res T) : mem * res ref :=
    match r with Ok t => let '(g, q) := alloc g t in (g, Ok q) | Raise e => (g, Raise e) end.
  Definition fresh_opt (g : mem) (r : res (option T)) : mem * res (option ref) :=
    match r with
    | Ok (Some t) => let '(g, q) := alloc g t in (g, Ok (Some q))
    | Ok None => (g, Ok None)
    | Raise e => (g, Raise e)
    end.
  (** a view of a parameter *)
  Definition fresh_par (g : mem) (r : res (option T)) : mem * res (option ref) :=
    match r with
    | Ok (Some t) => let '(g, q) := alloc g t in (g, Ok (Some (mkref (rl q) (rix q) true)))
    | Ok None => (g, Ok None)
    | Raise e => (g, Raise e)
    end.

  (** *** Views *)
  Definition with_ix (r : ref) (i : res (tensor (option nat))) : res ref :=
    i <- i ;; Ok (mkref (rl r) i (par r)).
  (** r[:, ..., start:stop], r[:, ..., start:], r.transpose(1, 2) *)
  Definition hslice (k start stop : nat) (r : ref) : res ref := with_ix r (slice None k start stop (rix r)).
  Definition hslice_from (k start : nat) (r : ref) : res ref := with_ix r (slice_from None k start (rix r)).
  Definition htranspose12 (r : ref) : res ref := with_ix r (transpose12 None (rix r)).
  (** torch.einsum("bii->bi", r): a view of r for square matrices.  The other branches are the error cases,
      and an ill-formed tensor, which torch does not have. *)
  Definition hdiag (g : mem) (r : ref) : mem * res ref :=
    match shape (rix r) with
    | [b; n; n'] =>
        if Nat.eqb n n' && wfb (rix r)
        then (g, Ok (mkref (rl r) (tab2 b n (fun q i => get None (rix r) [q; i; i])) (par r)))
        else fresh g (einsum "bii->bi" [rd g r])
    | _ => fresh g (einsum "bii->bi" [rd g r])
    end.

  (** *** In place *)
  Fixpoint set_at (d : list K) (i : nat) (v : K) : list K :=
    match d, i with
    | [], _ => []
    | _ :: d, O => v :: d
    | a :: d, S i => a :: set_at d i v
    end.
  Fixpoint write_at (d : list K) (ix : list (option nat)) (vs : list K) : list K :=
    match ix, vs with
    | i :: ix, v :: vs => write_at (match i with Some i => set_at d i v | None => d end) ix vs
    | _, _ => d
    end.
  Fixpoint set_store (ss : list (list K)) (l : nat) (d : list K) : list (list K) :=
    match ss, l with
    | [], _ => []
    | _ :: ss, O => d :: ss
    | a :: ss, S l => a :: set_store ss l d
    end.
  (** the entries of the tensor object r become vs; other tensor objects with the same storage see it *)
  Definition write (g : mem) (r : ref) (vs : list K) : mem :=
    mkmem (set_store (stores g) (rl r) (write_at (store g (rl r)) (data (rix r)) vs)) (par r || touched g).
  (** a += b (sequential.py:78, 117, 210).  torch raises when two entries of a share a position.  The last
      branch is for an ill-formed tensor, which torch does not have. *)
  Definition iadd (g : mem) (a b : ref) : mem * res (option ref) :=
    match tadd_ (rd g a) (rd g b) with
    | Raise e => (g, Raise e)
    | Ok t => if wfb (rix a) then
                if nodupb (data (rix a)) then (write g a (data t), Ok (Some a)) else (g, Raise RuntimeError)
              else let '(g, q) := alloc g t in (g, Ok (Some q))
    end.
  (** sequential.py:74-78, 113-117, 206-210 *)
  Definition haccumulate (g : mem) (acc new : option ref) : mem * res (option ref) :=
    match new with
    | None => (g, Ok acc)
    | Some n => match acc with None => (g, Ok (Some n)) | Some a => iadd g a n end
    end.

  (** *** State: the tensors of self.feature_maps are tensor objects; self.idx belongs to the MaxPool2d
      alone and stays a value *)
  Inductive hst := HSt (fm : list ref) (idx : option (tensor nat)) (kids : list hst).
  Definition hst0 : hst := HSt [] None [].
  Definition h_fm (s : hst) : list ref := match s with HSt fm _ _ => fm end.
  Definition h_idx (s : hst) : option (tensor nat) := match s with HSt _ i _ => i end.
  Definition h_kids (s : hst) : list hst := match s with HSt _ _ k => k end.
  Definition h_kid (s : hst) : hst := hd hst0 (h_kids s).
  Definition hset_kid (s k : hst) : hst := HSt (h_fm s) (h_idx s) [k].
  Definition hkid_split (ks : list hst) : hst * list hst :=
    match ks with [] => (hst0, []) | k :: ks => (k, ks) end.
  (** the state of Module.v: what the tensors hold *)
  Fixpoint er (g : mem) (s : hst) : st K :=
    match s with HSt fm idx ks => St (map (rd g) fm) idx (map (er g) ks) end.
  (** the storages a state refers to *)
  Fixpoint locs (s : hst) : list nat :=
    match s with HSt fm _ ks => map rl fm ++ flat_map locs ks end.

  (** what jmjTp accepts and returns *)
  Inductive hvalue := HN | HT (r : ref) | HL (l : list hvalue).
  Definition hof_opt (o : option ref) : hvalue := match o with None => HN | Some r => HT r end.
  Definition hto_opt (v : hvalue) : res (option ref) :=
    match v with HN => Ok None | HT r => Ok (Some r) | HL _ => Raise TypeError end.
  Definition hto_tensor (v : hvalue) : res ref :=
    match v with HT r => Ok r | _ => Raise TypeError end.
  Fixpoint vl (g : mem) (v : hvalue) : value K :=
    match v with HN => VNone | HT r => VT (rd g r) | HL l => VL (map (vl g) l) end.
  Fixpoint vlocs (v : hvalue) : list nat :=
    match v with HN => [] | HT r => [rl r] | HL l => flat_map vlocs l end.

  (** *** The layers *)
  (** whether r.reshape(...) is a view or a copy depends on the strides of r, which are not modelled:
      any answer is possible *)
  Variable contiguous : ref -> bool.
  Definition hreshape (g : mem) (r : ref) (t : res T) : mem * res ref :=
    match t with
    | Ok t => if contiguous r then (g, Ok (mkref (rl r) (mkT (shape t) (data (rix r))) (par r)))
              else fresh g (Ok t)
    | Raise e => (g, Raise e)
    end.
  (** flatten.py:15-17 and reshape.py:16-18 reshape; the other layers compute *)
  Definition hleaf_forward (g : mem) (l : leaf K) (x : ref) : mem * res ref :=
    match l with
    | Flatten | Reshape _ => hreshape g x (leaf_forward l (rd g x))
    | _ => fresh g (leaf_forward l (rd g x))
    end.
  (** linear.py:24 returns an expanded view of self.weight *)
  Definition hleaf_jacobian (g : mem) (l : leaf K) (x : ref) (val : option ref) (w : wrt)
    : mem * res (option ref) :=
    match l, w with
    | Linear _ _, Input => fresh_par g (leaf_jacobian l (rd g x) (rdo g val) w)
    | _, _ => fresh_opt g (leaf_jacobian l (rd g x) (rdo g val) w)
    end.
  (** flatten.py:43-56 and reshape.py:44-57 return the vector they were given *)
  Definition hleaf_jvp (g : mem) (l : leaf K) (x : ref) (val : option ref) (v : ref) (w : wrt)
    : mem * res (option ref) :=
    match l, w with
    | Flatten, Input | Reshape _, Input => (g, Ok (Some v))
    | _, _ => fresh_opt g (leaf_jvp l (rd g x) (rdo g val) (rd g v) w)
    end.
  (** flatten.py:115-128, reshape.py:116-129 *)
  Definition hleaf_vjp (g : mem) (l : leaf K) (x : ref) (val : option ref) (v : ref) (w : wrt)
    : mem * res (option ref) :=
    match l, w with
    | Flatten, Input | Reshape _, Input => (g, Ok (Some v))
    | _, _ => fresh_opt g (leaf_vjp l (rd g x) (rdo g val) (rd g v) w)
    end.
  (** flatten.py:59-74, reshape.py:60-75; linear.py:74-75 calls jacobian *)
  Definition hleaf_jmp (g : mem) (l : leaf K) (x : ref) (val mat : option ref) (w : wrt)
    : mem * res (option ref) :=
    match l, mat, w with
    | Flatten, Some m, Input | Reshape _, Some m, Input => (g, Ok (Some m))
    | Linear _ _, None, Input => fresh_par g (leaf_jmp l (rd g x) (rdo g val) None w)
    | _, _, _ => fresh_opt g (leaf_jmp l (rd g x) (rdo g val) (rdo g mat) w)
    end.
  (** flatten.py:131-146, reshape.py:132-147; linear.py:201-202 calls jacobian *)
  Definition hleaf_mjp (g : mem) (l : leaf K) (x : ref) (val mat : option ref) (w : wrt)
    : mem * res (option ref) :=
    match l, mat, w with
    | Flatten, Some m, Input | Reshape _, Some m, Input => (g, Ok (Some m))
    | Linear _ _, None, Input => fresh_par g (leaf_mjp l (rd g x) (rdo g val) None w)
    | _, _, _ => fresh_opt g (leaf_mjp l (rd g x) (rdo g val) (rdo g mat) w)
    end.
  Definition hsome (p : mem * res ref) : mem * res (option ref) := let '(g, r) := p in (g, some r).
  (** flatten.py:94-108, reshape.py:95-109: the matrix itself, or its diagonal, or a new matrix *)
  Definition hleaf_jmjTp (g : mem) (l : leaf K) (x : ref) (val mat : option ref) (w : wrt) (fd td db : bool)
    : mem * res (option ref) :=
    match l, mat, w with
    | Flatten, Some m, Input | Reshape _, Some m, Input =>
        match fd, td with
        | false, false | true, true => (g, Ok (Some m))
        | false, true => hsome (hdiag g m)
        | true, false => fresh_opt g (some (diag_embed (rd g m)))
        end
    | _, _, _ => fresh_opt g (leaf_jmjTp l (rd g x) (rdo g val) (rdo g mat) w fd td db)
    end.
  (** flatten.py:149-182, reshape.py:150-183; the forward that is run when val is None only gives the shape *)
  Definition hleaf_jTmjp (g : mem) (l : leaf K) (x : ref) (val mat : option ref) (w : wrt) (fd td db : bool)
    : mem * res (option ref) :=
    match l, mat, w with
    | Flatten, Some m, Input | Reshape _, Some m, Input =>
        match (match val with Some _ => Ok tt | None => _ <- leaf_forward l (rd g x) ;; Ok tt end) with
        | Raise e => (g, Raise e)
        | Ok _ =>
            match fd, td with
            | false, false | true, true => (g, Ok (Some m))
            | false, true => hsome (hdiag g m)
            | true, false => fresh_opt g (some (diag_embed (rd g m)))
            end
        end
    | _, _, _ => fresh_opt g (leaf_jTmjp l (rd g x) (rdo g val) (rdo g mat) w fd td db)
    end.

  (** *** forward *)
  (** the hook (sequential.py:28): o.detach() is a tensor with the storage of o *)
  Definition hhook_push (hooks : bool) (fm : list ref) (y : ref) : list ref := if hooks then fm ++ [y] else fm.

  Section Fwd.
    Variable fw : module K -> mem -> hst -> ref -> mem * hst * res ref.
    (** sequential.py:33-36 *)
    Fixpoint hseq_forward (hooks : bool) (ms : list (module K)) (g : mem) (ks : list hst) (x : ref)
      (fm : list ref) : mem * list hst * list ref * res ref :=
      match ms with
      | [] => (g, [], fm, Ok x)
      | m :: ms =>
          let '(k, ks) := hkid_split ks in
          let '(g, k, r) := fw m g k x in
          match r with
          | Raise e => (g, k :: ks, fm, Raise e)
          | Ok y => let '(g, ks, fm, r) := hseq_forward hooks ms g ks y (hhook_push hooks fm y) in
                    (g, k :: ks, fm, r)
          end
      end.
  End Fwd.

  (** forward (sequential.py:30-36, skipconnection.py:17-18, maxpool2d.py:16-27): feature_maps = [x] keeps
      the caller's tensor object itself *)
  Fixpoint hforward (m : module K) (g : mem) (s : hst) (x : ref) {struct m} : mem * hst * res ref :=
    match m with
    | Leaf l => let '(g, r) := hleaf_forward g l x in (g, s, r)
    | MaxPool cfg =>
        match max_pool2d cfg (rd g x) with
        | Ok (val, idx) => let '(g, q) := alloc g val in (g, HSt (h_fm s) (Some idx) (h_kids s), Ok q)
        | Raise e => (g, s, Raise e)
        end
    | Seq hooks ms =>
        let '(g, ks, fm, r) := hseq_forward hforward hooks ms g (h_kids s) x
                                 (if hooks then [x] else h_fm s) in
        (g, HSt fm (h_idx s) ks, r)
    | Skip F =>
        let '(g, k, r) := hforward F g (h_kid s) x in
        let '(g, r) := match r with
                       | Ok y => fresh g (cat n0 1 [rd g x; rd g y])
                       | Raise e => (g, Raise e)
                       end in
        (g, hset_kid s k, r)
    end.
  (** if val is None: val = self.forward(x) *)
  Definition hensure (m : module K) (g : mem) (s : hst) (x : ref) (val : option ref) : mem * hst * res ref :=
    match val with Some v => (g, s, Ok v) | None => hforward m g s x end.

  (** self.feature_maps[k] *)
  Definition hfmap_at (hooks : bool) (fm : list ref) (k : nat) : res ref :=
    if hooks then match nth_error fm k with Some t => Ok t | None => Raise IndexError end
    else Raise AttributeError.
  Definition hfmap2 (hooks : bool) (fm : list ref) (k : nat) : res (ref * ref) :=
    x <- hfmap_at hooks fm k ;; y <- hfmap_at hooks fm (S k) ;; Ok (x, y).
  (** None if val is None else val[:, l:] *)
  Definition hval_tail (l : nat) (val : option ref) : res (option ref) :=
    match val with None => Ok None | Some v => some (hslice_from 1 l v) end.

  (** a new tensor after a computation on the values the tensors of a result hold *)
  Definition hthen {A} (g : mem) (r : res A) (c : A -> res T) : mem * res (option ref) :=
    fresh_opt g (a <- r ;; some (c a)).

  (** *** vjp *)
  Section Vjp.
    Variable f : module K -> mem -> hst -> ref -> option ref -> ref -> wrt -> mem * hst * res (option ref).
    (** sequential.py:236-246 with wrt="input" *)
    Fixpoint hseq_vjp_in (hooks : bool) (fm : list ref) (ms : list (module K)) (g : mem) (ks : list hst)
      (k : nat) (v : ref) : mem * list hst * res ref :=
      match ms with
      | [] => (g, [], Ok v)
      | m :: ms =>
          let '(s, ks) := hkid_split ks in
          let '(g, ks, r) := hseq_vjp_in hooks fm ms g ks (S k) v in
          match (v <- r ;; p <- hfmap2 hooks fm k ;; Ok (v, p)) with
          | Raise e => (g, s :: ks, Raise e)
          | Ok (v, (x, y)) => let '(g, s, r) := f m g s x (Some y) v Input in
                              (g, s :: ks, r <- r ;; need r)
          end
      end.
    (** sequential.py:236-246 with wrt="weight" *)
    Fixpoint hseq_vjp_w (hooks : bool) (fm : list ref) (ms : list (module K)) (g : mem) (ks : list hst)
      (k : nat) (v : ref) : mem * list hst * res (list ref * ref) :=
      match ms with
      | [] => (g, [], Ok ([], v))
      | m :: ms =>
          let '(s, ks) := hkid_split ks in
          let '(g, ks, r) := hseq_vjp_w hooks fm ms g ks (S k) v in
          match (a <- r ;; p <- hfmap2 hooks fm k ;; Ok (a, p)) with
          | Raise e => (g, s :: ks, Raise e)
          | Ok (vs, v, (x, y)) =>
              let '(g, s, r) := f m g s x (Some y) v Weight in
              match r with
              | Raise e => (g, s :: ks, Raise e)
              | Ok vk =>
                  let vs := match vk with Some t => t :: vs | None => vs end in
                  if Nat.eqb k 0 then (g, s :: ks, Ok (vs, v))
                  else let '(g, s, r) := f m g s x (Some y) v Input in
                       (g, s :: ks, r <- r ;; v <- need r ;; Ok (vs, v))
              end
          end
      end.
  End Vjp.

  (** vjp (sequential.py:218-250, skipconnection.py:141-156, maxpool2d.py:150-182) *)
  Fixpoint hvjp (m : module K) (g : mem) (s : hst) (x : ref) (val : option ref) (v : ref) (w : wrt)
    {struct m} : mem * hst * res (option ref) :=
    match m with
    | Leaf l => let '(g, r) := hleaf_vjp g l x val v w in (g, s, r)
    | MaxPool cfg =>
        match w with
        | Input => let '(g, s, r) := hensure m g s x val in
                   let '(g, r) := hthen g r (fun y => pool_vjp (h_idx s) (rd g x) (rd g y) (rd g v)) in
                   (g, s, r)
        | _ => (g, s, Ok None)
        end
    | Seq hooks ms =>
        if wrt_ok w then
          let '(g, s, r) := hensure m g s x val in
          match r with
          | Raise e => (g, s, Raise e)
          | Ok _ =>
              match w with
              | Weight =>
                  let '(g, ks, r) := hseq_vjp_w hvjp hooks (h_fm s) ms g (h_kids s) 0 v in
                  let '(g, r) := fresh_opt g ('(vs, _) <- r ;;
                                   match vs with [] => Ok None | _ => some (cat n0 1 (map (rd g) vs)) end) in
                  (g, HSt (h_fm s) (h_idx s) ks, r)
              | _ =>
                  let '(g, ks, r) := hseq_vjp_in hvjp hooks (h_fm s) ms g (h_kids s) 0 v in
                  (g, HSt (h_fm s) (h_idx s) ks, some r)
              end
          end
        else (g, s, Raise AssertionError)
    | Skip F =>
        match (l <- numel0 (rd g x) ;; t <- hval_tail l val ;; vt <- hslice_from 1 l v ;; Ok (l, t, vt)) with
        | Raise e => (g, s, Raise e)
        | Ok (l, t, vt) =>
            let '(g, k, r) := hvjp F g (h_kid s) x t vt w in
            let '(g, r) := match w with
                           | Input => fresh_opt g (r <- r ;; a <- slice n0 1 0 l (rd g v) ;; r <- need r ;;
                                                   some (tadd a (rd g r)))
                           | Weight => (g, r)
                           | Other => (g, _ <- r ;; Ok None)
                           end in
            (g, hset_kid s k, r)
        end
    end.

  (** *** mjp *)
  Section Mjp.
    Variable f : module K -> mem -> hst -> ref -> option ref -> option ref -> wrt
                 -> mem * hst * res (option ref).
    (** sequential.py:273-283 with wrt="input" *)
    Fixpoint hseq_mjp_in (hooks : bool) (fm : list ref) (ms : list (module K)) (g : mem) (ks : list hst)
      (k : nat) (v : option ref) : mem * list hst * res (option ref) :=
      match ms with
      | [] => (g, [], Ok v)
      | m :: ms =>
          let '(s, ks) := hkid_split ks in
          let '(g, ks, r) := hseq_mjp_in hooks fm ms g ks (S k) v in
          match (v <- r ;; p <- hfmap2 hooks fm k ;; Ok (v, p)) with
          | Raise e => (g, s :: ks, Raise e)
          | Ok (v, (x, y)) => let '(g, s, r) := f m g s x (Some y) v Input in (g, s :: ks, r)
          end
      end.
    (** sequential.py:273-283 with wrt="weight" *)
    Fixpoint hseq_mjp_w (hooks : bool) (fm : list ref) (ms : list (module K)) (g : mem) (ks : list hst)
      (k : nat) (v : option ref) : mem * list hst * res (list ref * option ref) :=
      match ms with
      | [] => (g, [], Ok ([], v))
      | m :: ms =>
          let '(s, ks) := hkid_split ks in
          let '(g, ks, r) := hseq_mjp_w hooks fm ms g ks (S k) v in
          match (a <- r ;; p <- hfmap2 hooks fm k ;; Ok (a, p)) with
          | Raise e => (g, s :: ks, Raise e)
          | Ok (vs, v, (x, y)) =>
              let '(g, s, r) := f m g s x (Some y) v Weight in
              match r with
              | Raise e => (g, s :: ks, Raise e)
              | Ok vk =>
                  let vs := match vk with Some t => t :: vs | None => vs end in
                  if Nat.eqb k 0 then (g, s :: ks, Ok (vs, v))
                  else let '(g, s, r) := f m g s x (Some y) v Input in
                       (g, s :: ks, v <- r ;; Ok (vs, v))
              end
          end
      end.
  End Mjp.

  (** maxpool2d.py:30-54 *)
  Definition hmaxpool_jacobian (cfg : pool_cfg) (g : mem) (s : hst) (x : ref) (val : option ref) (w : wrt)
    : mem * hst * res (option ref) :=
    match w with
    | Input => let '(g, s, r) := hensure (MaxPool cfg) g s x val in
               let '(g, r) := hthen g r (fun y => pool_jacobian (h_idx s) (rd g x) (rd g y)) in (g, s, r)
    | _ => (g, s, Ok None)
    end.

  (** skipconnection.py:21-38, given self._F.jacobian *)
  Definition hskip_jacobian (F : module K) (jacF : mem -> hst -> option ref -> mem * hst * res (option ref))
    (g : mem) (s : hst) (x : ref) (val : option ref) (w : wrt) : mem * hst * res (option ref) :=
    let '(g, k, r) := jacF g (h_kid s) val in
    let s := hset_kid s k in
    match (jac <- r ;; b <- size 0 (rd g x) ;; l <- numel0 (rd g x) ;; Ok (jac, b, l)) with
    | Raise e => (g, s, Raise e)
    | Ok (jac, b, l) =>
        let '(g, s, r) := hensure (Skip F) g s x val in
        let '(g, r) := fresh_opt g (_ <- r ;;
            match w with
            | Input => o <- reshape [b; l] (ones (shape (rd g x))) ;;
                       id <- diag_embed o ;;
                       jac <- need jac ;; some (cat n0 1 [id; rd g jac])
            | Weight => jac <- need jac ;; some (cat n0 1 [zeros [b; l; n_params F]; rd g jac])
            | Other => Ok None
            end) in
        (g, s, r)
    end.

  (** mjp (sequential.py:253-287, skipconnection.py:159-176, maxpool2d.py:185-221) *)
  Fixpoint hmjp (m : module K) (g : mem) (s : hst) (x : ref) (val mat : option ref) (w : wrt) {struct m}
    : mem * hst * res (option ref) :=
    match m with
    | Leaf l => let '(g, r) := hleaf_mjp g l x val mat w in (g, s, r)
    | MaxPool cfg =>
        match mat with
        | None => hmaxpool_jacobian cfg g s x val w
        | Some mt =>
            match w with
            | Input => let '(g, s, r) := hensure m g s x val in
                       let '(g, r) := hthen g r (fun y => pool_mjp (h_idx s) (rd g x) (rd g y) (rd g mt)) in
                       (g, s, r)
            | _ => (g, s, Ok None)
            end
        end
    | Seq hooks ms =>
        if wrt_ok w then
          let '(g, s, r) := hensure m g s x val in
          let '(g, r) := match r with
                         | Raise e => (g, Raise e)
                         | Ok y => match mat with
                                   | Some mt => (g, Ok mt)
                                   | None => fresh g match shape (rd g y) with
                                                     | [] => Raise IndexError
                                                     | b :: sh => Ok (eye_repeat b (numel sh))
                                                     end
                                   end
                         end in
          match r with
          | Raise e => (g, s, Raise e)
          | Ok mt =>
              match w with
              | Weight =>
                  let '(g, ks, r) := hseq_mjp_w hmjp hooks (h_fm s) ms g (h_kids s) 0 (Some mt) in
                  let '(g, r) := fresh_opt g ('(vs, _) <- r ;;
                                   match vs with [] => Ok None | _ => some (cat n0 2 (map (rd g) vs)) end) in
                  (g, HSt (h_fm s) (h_idx s) ks, r)
              | _ =>
                  let '(g, ks, r) := hseq_mjp_in hmjp hooks (h_fm s) ms g (h_kids s) 0 (Some mt) in
                  (g, HSt (h_fm s) (h_idx s) ks, r)
              end
          end
        else (g, s, Raise AssertionError)
    | Skip F =>
        match mat with
        | None => hskip_jacobian F (fun g k val => hmjp F g k x val None w) g s x val w
        | Some mt =>
            match (l <- numel0 (rd g x) ;; t <- hval_tail l val ;; vt <- hslice_from 2 l mt ;;
                   Ok (l, t, vt)) with
            | Raise e => (g, s, Raise e)
            | Ok (l, t, vt) =>
                let '(g, k, r) := hmjp F g (h_kid s) x t (Some vt) w in
                let '(g, r) := match w with
                               | Input => fresh_opt g (r <- r ;; a <- slice n0 2 0 l (rd g mt) ;; r <- need r ;;
                                                       some (tadd a (rd g r)))
                               | Weight => (g, r)
                               | Other => (g, _ <- r ;; Ok None)
                               end in
                (g, hset_kid s k, r)
            end
        end
    end.

  (** jacobian (sequential.py:39-41, skipconnection.py:21-38, maxpool2d.py:30-54) *)
  Definition hjacobian (m : module K) (g : mem) (s : hst) (x : ref) (val : option ref) (w : wrt)
    : mem * hst * res (option ref) :=
    match m with
    | Leaf l => let '(g, r) := hleaf_jacobian g l x val w in (g, s, r)
    | MaxPool cfg => hmaxpool_jacobian cfg g s x val w
    | Seq _ _ => hmjp m g s x val None w
    | Skip F => hskip_jacobian F (fun g k val => hmjp F g k x val None w) g s x val w
    end.

  (** *** jvp *)
  Section Jvp.
    Variable f : module K -> mem -> hst -> ref -> option ref -> ref -> wrt -> mem * hst * res (option ref).
    (** sequential.py:61-65 *)
    Fixpoint hseq_jvp_in (hooks : bool) (ms : list (module K)) (g : mem) (ks : list hst) (x : ref)
      (fm : list ref) (v : ref) : mem * list hst * list ref * res ref :=
      match ms with
      | [] => (g, [], fm, Ok v)
      | m :: ms =>
          let '(k, ks) := hkid_split ks in
          let '(g, k, r) := hforward m g k x in
          match r with
          | Raise e => (g, k :: ks, fm, Raise e)
          | Ok y =>
              let fm := hhook_push hooks fm y in
              let '(g, k, r) := f m g k x (Some y) v Input in
              match (r <- r ;; need r) with
              | Raise e => (g, k :: ks, fm, Raise e)
              | Ok v => let '(g, ks, fm, r) := hseq_jvp_in hooks ms g ks y fm v in (g, k :: ks, fm, r)
              end
          end
      end.
    (** sequential.py:67-82 *)
    Fixpoint hseq_jvp_w (hooks : bool) (ms : list (module K)) (g : mem) (ks : list hst) (x : ref)
      (fm : list ref) (v : ref) (p : nat) (acc : option ref) : mem * list hst * list ref * res (option ref) :=
      match ms with
      | [] => (g, [], fm, Ok acc)
      | m :: ms =>
          let '(k, ks) := hkid_split ks in
          let '(g, k, r) := hforward m g k x in
          match r with
          | Raise e => (g, k :: ks, fm, Raise e)
          | Ok y =>
              let fm := hhook_push hooks fm y in
              let '(g, k, r) := match acc with
                                | None => (g, k, Ok None)
                                | Some a => f m g k x (Some y) a Input
                                end in
              match (acc <- r ;; vp <- hslice 1 p (p + n_params m) v ;; Ok (acc, vp)) with
              | Raise e => (g, k :: ks, fm, Raise e)
              | Ok (acc, vp) =>
                  let '(g, k, r) := f m g k x (Some y) vp Weight in
                  let '(g, r) := match r with Raise e => (g, Raise e) | Ok new => haccumulate g acc new end in
                  match r with
                  | Raise e => (g, k :: ks, fm, Raise e)
                  | Ok acc =>
                      let '(g, ks, fm, r) := hseq_jvp_w hooks ms g ks y fm v (p + n_params m) acc in
                      (g, k :: ks, fm, r)
                  end
              end
          end
      end.
  End Jvp.

  (** jvp (sequential.py:48-82, skipconnection.py:45-62, maxpool2d.py:61-75) *)
  Fixpoint hjvp (m : module K) (g : mem) (s : hst) (x : ref) (val : option ref) (v : ref) (w : wrt)
    {struct m} : mem * hst * res (option ref) :=
    match m with
    | Leaf l => let '(g, r) := hleaf_jvp g l x val v w in (g, s, r)
    | MaxPool cfg => (g, s, match w with Input => Raise NotImplementedError | _ => Ok None end)
    | Seq hooks ms =>
        match w with
        | Input => let '(g, ks, fm, r) := hseq_jvp_in hjvp hooks ms g (h_kids s) x (h_fm s) v in
                   (g, HSt fm (h_idx s) ks, some r)
        | Weight => let '(g, ks, fm, r) := hseq_jvp_w hjvp hooks ms g (h_kids s) x (h_fm s) v 0 None in
                    (g, HSt fm (h_idx s) ks, r)
        | Other => (g, s, Raise AssertionError)
        end
    | Skip F =>
        match (b <- size 0 (rd g x) ;; l <- numel0 (rd g x) ;; t <- hval_tail l val ;; Ok (b, l, t)) with
        | Raise e => (g, s, Raise e)
        | Ok (b, l, t) =>
            let '(g, k, r) := hjvp F g (h_kid s) x t v w in
            let '(g, r) := fresh_opt g
              (r <- r ;;
               match w with
               | Input => r <- need r ;; some (cat n0 1 [rd g v; rd g r])
               | Weight => z <- reshape [b; l] (zeros (shape (rd g x))) ;; r <- need r ;;
                           some (cat n0 1 [z; rd g r])
               | Other => Ok None
               end) in
            (g, hset_kid s k, r)
        end
    end.

  (** *** jmp *)
  Section Jmp.
    Variable f : module K -> mem -> hst -> ref -> option ref -> option ref -> wrt
                 -> mem * hst * res (option ref).
    (** sequential.py:100-104 *)
    Fixpoint hseq_jmp_in (hooks : bool) (ms : list (module K)) (g : mem) (ks : list hst) (x : ref)
      (fm : list ref) (v : option ref) : mem * list hst * list ref * res (option ref) :=
      match ms with
      | [] => (g, [], fm, Ok v)
      | m :: ms =>
          let '(k, ks) := hkid_split ks in
          let '(g, k, r) := hforward m g k x in
          match r with
          | Raise e => (g, k :: ks, fm, Raise e)
          | Ok y =>
              let fm := hhook_push hooks fm y in
              let '(g, k, r) := f m g k x (Some y) v Input in
              match r with
              | Raise e => (g, k :: ks, fm, Raise e)
              | Ok v => let '(g, ks, fm, r) := hseq_jmp_in hooks ms g ks y fm v in (g, k :: ks, fm, r)
              end
          end
      end.
    (** sequential.py:106-121 *)
    Fixpoint hseq_jmp_w (hooks : bool) (ms : list (module K)) (g : mem) (ks : list hst) (x : ref)
      (fm : list ref) (v : ref) (p : nat) (acc : option ref) : mem * list hst * list ref * res (option ref) :=
      match ms with
      | [] => (g, [], fm, Ok acc)
      | m :: ms =>
          let '(k, ks) := hkid_split ks in
          let '(g, k, r) := hforward m g k x in
          match r with
          | Raise e => (g, k :: ks, fm, Raise e)
          | Ok y =>
              let fm := hhook_push hooks fm y in
              let '(g, k, r) := match acc with
                                | None => (g, k, Ok None)
                                | Some a => f m g k x (Some y) (Some a) Input
                                end in
              match (acc <- r ;; vp <- hslice 1 p (p + n_params m) v ;;
                     check (Nat.eqb (rank (rix v)) 3) IndexError (Ok (acc, vp))) with
              | Raise e => (g, k :: ks, fm, Raise e)
              | Ok (acc, vp) =>
                  let '(g, k, r) := f m g k x (Some y) (Some vp) Weight in
                  let '(g, r) := match r with Raise e => (g, Raise e) | Ok new => haccumulate g acc new end in
                  match r with
                  | Raise e => (g, k :: ks, fm, Raise e)
                  | Ok acc =>
                      let '(g, ks, fm, r) := hseq_jmp_w hooks ms g ks y fm v (p + n_params m) acc in
                      (g, k :: ks, fm, r)
                  end
              end
          end
      end.
  End Jmp.

  (** jmp (sequential.py:85-121, skipconnection.py:65-84, maxpool2d.py:78-107) *)
  Fixpoint hjmp (m : module K) (g : mem) (s : hst) (x : ref) (val mat : option ref) (w : wrt) {struct m}
    : mem * hst * res (option ref) :=
    match m with
    | Leaf l => let '(g, r) := hleaf_jmp g l x val mat w in (g, s, r)
    | MaxPool cfg =>
        match mat with
        | None => hmaxpool_jacobian cfg g s x val w
        | Some mt =>
            match w with
            | Input => let '(g, s, r) := hensure m g s x val in
                       let '(g, r) := hthen g r (fun y => pool_jmp (h_idx s) (rd g x) (rd g y) (rd g mt)) in
                       (g, s, r)
            | _ => (g, s, Ok None)
            end
        end
    | Seq hooks ms =>
        if wrt_ok w then
          match mat with
          | None => hjacobian m g s x val w
          | Some mt =>
              match w with
              | Weight => let '(g, ks, fm, r) := hseq_jmp_w hjmp hooks ms g (h_kids s) x (h_fm s) mt 0 None in
                          (g, HSt fm (h_idx s) ks, r)
              | _ => let '(g, ks, fm, r) := hseq_jmp_in hjmp hooks ms g (h_kids s) x (h_fm s) (Some mt) in
                     (g, HSt fm (h_idx s) ks, r)
              end
          end
        else (g, s, Raise AssertionError)
    | Skip F =>
        match mat with
        | None => hjacobian m g s x val w
        | Some mt =>
            match (b <- size 0 (rd g x) ;; l <- numel0 (rd g x) ;; t <- hval_tail l val ;; Ok (b, l, t)) with
            | Raise e => (g, s, Raise e)
            | Ok (b, l, t) =>
                let '(g, k, r) := hjmp F g (h_kid s) x t (Some mt) w in
                let '(g, r) := fresh_opt g
                  (r <- r ;;
                   match w with
                   | Input => r <- need r ;; some (cat n0 1 [rd g mt; rd g r])
                   | Weight => c <- size 2 (rd g mt) ;; r <- need r ;;
                               some (cat n0 1 [zeros [b; l; c]; rd g r])
                   | Other => Ok None
                   end) in
                (g, hset_kid s k, r)
            end
        end
    end.

  (** *** jmjTp *)
  (** a computed tensor as a value *)
  Definition fresh_val (g : mem) (r : res T) : mem * res hvalue :=
    let '(g, r) := fresh g r in (g, q <- r ;; Ok (HT q)).

  Section JmjTp.
    Variable f : module K -> mem -> hst -> ref -> option ref -> hvalue -> wrt -> bool -> bool -> bool
                 -> mem * hst * res hvalue.
    (** sequential.py:149-161 *)
    Fixpoint hseq_jmjTp_in (hooks : bool) (fm : list ref) (ms : list (module K)) (g : mem) (ks : list hst)
      (k : nat) (v : hvalue) (fd td db : bool) : mem * list hst * res hvalue :=
      match ms with
      | [] => (g, [], Ok v)
      | m :: ms =>
          let '(s, ks) := hkid_split ks in
          match hfmap2 hooks fm k with
          | Raise e => (g, s :: ks, Raise e)
          | Ok (x, y) =>
              let '(g, s, r) := f m g s x (Some y) v Input (if Nat.eqb k 0 then fd else db)
                                  (match ms with [] => td | _ => db end) db in
              match r with
              | Raise e => (g, s :: ks, Raise e)
              | Ok v => let '(g, ks, r) := hseq_jmjTp_in hooks fm ms g ks (S k) v fd td db in (g, s :: ks, r)
              end
          end
      end.
    (** sequential.py:167-179: the blocks are views of the matrix *)
    Fixpoint hseq_blocks (ms : list (module K)) (mt : ref) (p : nat) (fd : bool) : res (list hvalue) :=
      match ms with
      | [] => Ok []
      | m :: ms =>
          if Nat.eqb (n_params m) 0 then hseq_blocks ms mt p fd
          else b <- hslice 1 p (p + n_params m) mt ;;
               b <- (if fd then Ok b else hslice 2 p (p + n_params m) b) ;;
               bs <- hseq_blocks ms mt (p + n_params m) fd ;; Ok (HT b :: bs)
      end.
    (** sequential.py:183-211 *)
    Fixpoint hseq_jmjTp_w (hooks : bool) (fm : list ref) (ms : list (module K)) (g : mem) (ks : list hst)
      (k : nat) (blocks : list hvalue) (acc : hvalue) (fd td db : bool) : mem * list hst * res hvalue :=
      match ms with
      | [] => (g, [], Ok acc)
      | m :: ms =>
          let '(s, ks) := hkid_split ks in
          let td' := match ms with [] => td | _ => db end in
          let '(g, s, r) := match acc with
                            | HN => (g, s, Ok HN)
                            | a => match hfmap2 hooks fm k with
                                   | Raise e => (g, s, Raise e)
                                   | Ok (x, y) => f m g s x (Some y) a Input db td' db
                                   end
                            end in
          match r with
          | Raise e => (g, s :: ks, Raise e)
          | Ok acc =>
              if Nat.eqb (n_params m) 0
              then let '(g, ks, r) := hseq_jmjTp_w hooks fm ms g ks (S k) blocks acc fd td db in
                   (g, s :: ks, r)
              else
                match (p <- hfmap2 hooks fm k ;;
                       match blocks with [] => Raise IndexError | b :: bs => Ok (p, b, bs) end) with
                | Raise e => (g, s :: ks, Raise e)
                | Ok (x, y, b, bs) =>
                    let '(g, s, r) := f m g s x (Some y) b Weight fd td' db in
                    let '(g, r) := match (new <- r ;; new <- hto_opt new ;; acc <- hto_opt acc ;;
                                          Ok (acc, new)) with
                                   | Raise e => (g, Raise e)
                                   | Ok (acc, new) => haccumulate g acc new
                                   end in
                    match r with
                    | Raise e => (g, s :: ks, Raise e)
                    | Ok acc =>
                        let '(g, ks, r) := hseq_jmjTp_w hooks fm ms g ks (S k) bs (hof_opt acc) fd td db in
                        (g, s :: ks, r)
                    end
                end
          end
      end.
  End JmjTp.

  (** jmjTp (sequential.py:124-211, skipconnection.py:87-134, maxpool2d.py:110-143) *)
  Fixpoint hjmjTp (m : module K) (g : mem) (s : hst) (x : ref) (val : option ref) (mat : hvalue) (w : wrt)
    (fd td db : bool) {struct m} : mem * hst * res hvalue :=
    match m with
    | Leaf l => let '(g, r) := match hto_opt mat with
                               | Raise e => (g, Raise e)
                               | Ok mt => hleaf_jmjTp g l x val mt w fd td db
                               end in
                (g, s, r <- r ;; Ok (hof_opt r))
    | MaxPool cfg =>
        let '(g, s, r) := hensure m g s x val in
        (g, s, _ <- r ;; match w with Input => Raise NotImplementedError | _ => Ok HN end)
    | Seq hooks ms =>
        if db_ok fd td db then
          let '(g, s, r) := hensure m g s x val in
          match r with
          | Raise e => (g, s, Raise e)
          | Ok _ =>
              match w with
              | Input =>
                  let '(g, mt, fd) := match mat with
                                      | HN => let '(g, q) := alloc g (ones (shape (rd g x))) in (g, HT q, true)
                                      | v => (g, v, fd)
                                      end in
                  let '(g, ks, r) := hseq_jmjTp_in hjmjTp hooks (h_fm s) ms g (h_kids s) 0 mt fd td db in
                  (g, HSt (h_fm s) (h_idx s) ks, r)
              | Weight =>
                  let '(g, r) := match mat with
                                 | HN => let '(g, r) := fresh g (b <- size 0 (rd g x) ;;
                                                                 Ok (ones [b; n_params m])) in
                                         (g, q <- r ;; Ok (HT q, true))
                                 | v => (g, Ok (v, fd))
                                 end in
                  match ('(mt, fd) <- r ;;
                         bs <- match mt with
                               | HL l => Ok l
                               | HT t => hseq_blocks ms t 0 fd
                               | HN => Raise TypeError
                               end ;;
                         Ok (bs, fd)) with
                  | Raise e => (g, s, Raise e)
                  | Ok (bs, fd) =>
                      let '(g, ks, r) := hseq_jmjTp_w hjmjTp hooks (h_fm s) ms g (h_kids s) 0 bs HN fd td db in
                      (g, HSt (h_fm s) (h_idx s) ks, r)
                  end
              | Other => (g, s, Ok HN)
              end
          end
        else (g, s, Raise AssertionError)
    | Skip F =>
        if db_ok fd td db then
          let '(g, s, r) := hensure m g s x val in
          match (y <- r ;; b <- size 0 (rd g x) ;; l1 <- numel0 (rd g x) ;; l2 <- numel0 (rd g y) ;;
                 t <- hslice_from 1 l1 y ;; Ok (b, l1, l2, t)) with
          | Raise e => (g, s, Raise e)
          | Ok (b, l1, l2, t) =>
              let '(g, k, r) := hjmjTp F g (h_kid s) x (Some t) mat w fd td db in
              let s := hset_kid s k in
              match r with
              | Raise e => (g, s, Raise e)
              | Ok j =>
                  match w with
                  | Input =>
                      if td then
                        let '(g, r) := fresh_val g
                          (mt <- hto_tensor mat ;;
                           a <- (if fd then Ok (rd g mt) else einsum "bii->bi" [rd g mt]) ;;
                           j <- hto_tensor j ;; cat n0 1 [a; rd g j]) in
                        (g, s, r)
                      else
                        let '(g, r) := match hto_tensor mat with
                                       | Raise e => (g, Raise e)
                                       | Ok mt => if fd then fresh g (diag_embed (rd g mt)) else (g, Ok mt)
                                       end in
                        match r with
                        | Raise e => (g, s, Raise e)
                        | Ok mt =>
                            let '(g, k, r) := hjmp F g (h_kid s) x (Some t) (Some mt) w in
                            let s := hset_kid s k in
                            match (jm <- r ;; need jm) with
                            | Raise e => (g, s, Raise e)
                            | Ok jm =>
                                if fd then
                                  let '(g, r) := fresh_val g
                                    (jmT <- transpose12 n0 (rd g jm) ;; j <- hto_tensor j ;;
                                     a <- cat n0 2 [rd g mt; jmT] ;; c <- cat n0 2 [rd g jm; rd g j] ;;
                                     cat n0 1 [a; c]) in
                                  (g, s, r)
                                else
                                  match htranspose12 mt with
                                  | Raise e => (g, s, Raise e)
                                  | Ok mtT =>
                                      let '(g, k, r) := hjmp F g (h_kid s) x (Some t) (Some mtT) w in
                                      let s := hset_kid s k in
                                      let '(g, r) := fresh_val g
                                        (mj <- r ;; mj <- need mj ;; mjT <- transpose12 n0 (rd g mj) ;;
                                         j <- hto_tensor j ;;
                                         a <- cat n0 2 [rd g mt; mjT] ;; c <- cat n0 2 [rd g jm; rd g j] ;;
                                         cat n0 1 [a; c]) in
                                      (g, s, r)
                                  end
                            end
                        end
                  | Weight =>
                      let '(g, r) := fresh_val g
                        (j <- hto_tensor j ;;
                         if td then z <- reshape [b; l1] (zeros (shape (rd g x))) ;; cat n0 1 [z; rd g j]
                         else c <- cat n0 2 [zeros [b; l2 - l1; l1]; rd g j] ;;
                              cat n0 1 [zeros [b; l1; l2]; c]) in
                      (g, s, r)
                  | Other => (g, s, Ok HN)
                  end
              end
          end
        else (g, s, Raise AssertionError)
    end.

  (** *** jTmjp *)
  Section JTmjp.
    Variable f : module K -> mem -> hst -> ref -> option ref -> hvalue -> wrt -> bool -> bool -> bool
                 -> mem * hst * res hvalue.
    (** sequential.py:312-339 with wrt != "weight" *)
    Fixpoint hseq_jTmjp_in (hooks : bool) (fm : list ref) (ms : list (module K)) (g : mem) (ks : list hst)
      (k : nat) (v : hvalue) (fd td db : bool) : mem * list hst * res hvalue :=
      match ms with
      | [] => (g, [], Ok v)
      | m :: ms =>
          let '(s, ks) := hkid_split ks in
          let '(g, ks, r) := hseq_jTmjp_in hooks fm ms g ks (S k) v fd td db in
          match (v <- r ;; p <- hfmap2 hooks fm k ;; Ok (v, p)) with
          | Raise e => (g, s :: ks, Raise e)
          | Ok (v, (x, y)) =>
              let '(g, s, r) := f m g s x (Some y) v Input (match ms with [] => fd | _ => db end)
                                  (if Nat.eqb k 0 then td else db) db in
              (g, s :: ks, r)
          end
      end.
    (** sequential.py:312-339 with wrt="weight" *)
    Fixpoint hseq_jTmjp_w (hooks : bool) (fm : list ref) (ms : list (module K)) (g : mem) (ks : list hst)
      (k : nat) (v : hvalue) (fd td db : bool) : mem * list hst * res (list hvalue * hvalue) :=
      match ms with
      | [] => (g, [], Ok ([], v))
      | m :: ms =>
          let '(s, ks) := hkid_split ks in
          let '(g, ks, r) := hseq_jTmjp_w hooks fm ms g ks (S k) v fd td db in
          match (a <- r ;; p <- hfmap2 hooks fm k ;; Ok (a, p)) with
          | Raise e => (g, s :: ks, Raise e)
          | Ok (vs, v, (x, y)) =>
              let fd' := match ms with [] => fd | _ => db end in
              let '(g, s, r) := f m g s x (Some y) v Weight fd' td db in
              match r with
              | Raise e => (g, s :: ks, Raise e)
              | Ok vk =>
                  let vs := match vk with HN => vs | t => t :: vs end in
                  if Nat.eqb k 0 then (g, s :: ks, Ok (vs, v))
                  else let '(g, s, r) := f m g s x (Some y) v Input fd' db db in
                       (g, s :: ks, v <- r ;; Ok (vs, v))
              end
          end
      end.
  End JTmjp.

  (** jTmjp (sequential.py:290-347, skipconnection.py:179-226, maxpool2d.py:224-304) *)
  Fixpoint hjTmjp (m : module K) (g : mem) (s : hst) (x : ref) (val : option ref) (mat : hvalue) (w : wrt)
    (fd td db : bool) {struct m} : mem * hst * res hvalue :=
    match m with
    | Leaf l => let '(g, r) := match hto_opt mat with
                               | Raise e => (g, Raise e)
                               | Ok mt => hleaf_jTmjp g l x val mt w fd td db
                               end in
                (g, s, r <- r ;; Ok (hof_opt r))
    | MaxPool cfg =>
        let '(g, s, r) := hensure m g s x val in
        let '(g, r) := fresh_opt g (y <- r ;; mt <- hto_opt mat ;;
                                    pool_jTmjp (h_idx s) (rd g x) (rd g y) (rdo g mt) w fd td db) in
        (g, s, r <- r ;; Ok (hof_opt r))
    | Seq hooks ms =>
        if db_ok fd td db then
          let '(g, s, r) := hensure m g s x val in
          let '(g, r) := match r with
                         | Raise e => (g, Raise e)
                         | Ok y => match mat with
                                   | HN => let '(g, r) := fresh g match shape (rd g y) with
                                                                  | [] => Raise IndexError
                                                                  | b :: sh => Ok (ones [b; numel sh])
                                                                  end in
                                           (g, q <- r ;; Ok (HT q, true))
                                   | v => (g, Ok (v, fd))
                                   end
                         end in
          match r with
          | Raise e => (g, s, Raise e)
          | Ok (mt, fd) =>
              match w with
              | Weight =>
                  let '(g, ks, r) := hseq_jTmjp_w hjTmjp hooks (h_fm s) ms g (h_kids s) 0 mt fd td db in
                  let '(g, r) := match r with
                                 | Raise e => (g, Raise e)
                                 | Ok ([], _) => (g, Ok HN)
                                 | Ok (vs, _) =>
                                     if td then fresh_val g (ts <- mapM hto_tensor vs ;; cat n0 1 (map (rd g) ts))
                                     else (g, Ok (HL vs))
                                 end in
                  (g, HSt (h_fm s) (h_idx s) ks, r)
              | _ =>
                  let '(g, ks, r) := hseq_jTmjp_in hjTmjp hooks (h_fm s) ms g (h_kids s) 0 mt fd td db in
                  (g, HSt (h_fm s) (h_idx s) ks,
                   v <- r ;; match w with Input => Ok v | _ => Ok HN end)
              end
          end
        else (g, s, Raise AssertionError)
    | Skip F =>
        if db_ok fd td db then
          let '(g, s, r) := hensure m g s x val in
          let '(g, r) := match r with
                         | Raise e => (g, Raise e)
                         | Ok y => match mat with
                                   | HN => let '(g, q) := alloc g (ones (shape (rd g y))) in (g, Ok (y, q, true))
                                   | v => (g, t <- hto_tensor v ;; Ok (y, t, fd))
                                   end
                         end in
          match ('(y, mt, fd) <- r ;;
                 l <- numel0 (rd g x) ;;
                 t <- hslice_from 1 l y ;;
                 sub <- hslice_from 1 l mt ;;
                 sub <- (if fd then Ok sub else hslice_from 2 l sub) ;;
                 Ok (mt, fd, l, t, sub)) with
          | Raise e => (g, s, Raise e)
          | Ok (mt, fd, l, t, sub) =>
              let '(g, k, r) := hjTmjp F g (h_kid s) x (Some t) (HT sub) w fd td db in
              let s := hset_kid s k in
              match r with
              | Raise e => (g, s, Raise e)
              | Ok j =>
                  match w with
                  | Input =>
                      if fd then
                        let '(g, r) := fresh_val g
                          (a <- slice n0 1 0 l (rd g mt) ;;
                           a <- (if td then Ok a else diag_embed a) ;;
                           j <- hto_tensor j ;; tadd (rd g j) a) in
                        (g, s, r)
                      else
                        match (a <- hslice 1 0 l mt ;; hslice_from 2 l a) with
                        | Raise e => (g, s, Raise e)
                        | Ok m12 =>
                            let '(g, k, r) := hmjp F g (h_kid s) x (Some t) (Some m12) w in
                            let s := hset_kid s k in
                            match (mj <- r ;; mj <- need mj ;;
                                   a <- hslice_from 1 l mt ;; a <- hslice 2 0 l a ;;
                                   a <- htranspose12 a ;; Ok (mj, a)) with
                            | Raise e => (g, s, Raise e)
                            | Ok (mj, m21T) =>
                                let '(g, k, r) := hmjp F g (h_kid s) x (Some t) (Some m21T) w in
                                let s := hset_kid s k in
                                let '(g, r) := fresh_val g
                                  (jm <- r ;; jm <- need jm ;; jm <- transpose12 n0 (rd g jm) ;;
                                   j <- hto_tensor j ;;
                                   m11 <- slice n0 1 0 l (rd g mt) ;; m11 <- slice n0 2 0 l m11 ;;
                                   if td then
                                     mj <- einsum "bii->bi" [rd g mj] ;; jm <- einsum "bii->bi" [jm] ;;
                                     m11 <- einsum "bii->bi" [m11] ;;
                                     r <- tadd (rd g j) mj ;; r <- tadd r jm ;; tadd r m11
                                   else
                                     r <- tadd (rd g j) (rd g mj) ;; r <- tadd r jm ;; tadd r m11) in
                                (g, s, r)
                            end
                        end
                  | Weight => (g, s, Ok j)
                  | Other => (g, s, Ok HN)
                  end
              end
          end
        else (g, s, Raise AssertionError)
    end.
End Storage.
Arguments mem K : clear implicits.
