(** A small executable model of the torch tensor operations the library calls.

    A tensor is a shape and its row-major (C-contiguous) data.  Every operation raises where
    torch raises (wrong rank, incompatible sizes).  dtype, device, strides and memory sharing are
    not modelled: tensors are immutable values.  Nothing here models /repo code itself; the uses
    in /repo are cited in the layer files. *)
From Coq Require Import String Ascii List Arith ZArith Lia Bool.
From Verif Require Import Scalar.
Import ListNotations.
Local Open Scope nat_scope.
Local Open Scope list_scope.

Record tensor (A : Type) := mkT { shape : list nat; data : list A }.
Arguments mkT {A} shape data. Arguments shape {A} t. Arguments data {A} t.

(** number of elements of a shape *)
Definition numel (s : list nat) : nat := fold_right Nat.mul 1 s.

(** row-major position of a multi-index, and back *)
Fixpoint ravel (s idx : list nat) : nat :=
  match s, idx with
  | _ :: s', i :: idx' => i * numel s' + ravel s' idx'
  | _, _ => 0
  end.
Fixpoint unravel (s : list nat) (k : nat) : list nat :=
  match s with
  | [] => []
  | _ :: s' => (k / numel s') :: unravel s' (k mod numel s')
  end.

(** the multi-index is within the shape *)
Fixpoint valid (s idx : list nat) : Prop :=
  match s, idx with
  | [], [] => True
  | d :: s', i :: idx' => i < d /\ valid s' idx'
  | _, _ => False
  end.

Definition wf {A} (t : tensor A) : Prop := length (data t) = numel (shape t).

(** element access (the default is never reached for valid indices of well-formed tensors) *)
Definition get {A} (d : A) (t : tensor A) (idx : list nat) : A :=
  nth (ravel (shape t) idx) (data t) d.

(** build a tensor from its entries *)
Definition tab {A} (s : list nat) (f : list nat -> A) : tensor A :=
  mkT s (map (fun k => f (unravel s k)) (seq 0 (numel s))).

Definition shape_eqb (s s' : list nat) : bool := if list_eq_dec Nat.eq_dec s s' then true else false.

Definition rank {A} (t : tensor A) : nat := length (shape t).
Definition dim {A} (t : tensor A) (k : nat) : nat := nth k (shape t) 0.

(** curried constructors *)
Notation i_ k idx := (nth k idx 0).
Definition tab1 {A} n (f : nat -> A) : tensor A := tab [n] (fun x => f (i_ 0 x)).
Definition tab2 {A} n m (f : nat -> nat -> A) : tensor A := tab [n; m] (fun x => f (i_ 0 x) (i_ 1 x)).
Definition tab3 {A} n m p (f : nat -> nat -> nat -> A) : tensor A :=
  tab [n; m; p] (fun x => f (i_ 0 x) (i_ 1 x) (i_ 2 x)).
Definition tab4 {A} n m p q (f : nat -> nat -> nat -> nat -> A) : tensor A :=
  tab [n; m; p; q] (fun x => f (i_ 0 x) (i_ 1 x) (i_ 2 x) (i_ 3 x)).

(** ** Shape operations *)

(** t.reshape( *s ) for an explicit shape *)
Definition reshape {A} (s : list nat) (t : tensor A) : res (tensor A) :=
  if Nat.eqb (numel s) (numel (shape t)) then Ok (mkT s (data t)) else Raise RuntimeError.

(** t.reshape( *s, -1 ): the last dimension is inferred; torch refuses when it is ambiguous *)
Definition reshape_m1 {A} (s : list nat) (t : tensor A) : res (tensor A) :=
  if Nat.eqb (numel s) 0 then Raise RuntimeError
  else if Nat.eqb (numel (shape t) mod numel s) 0
       then Ok (mkT (s ++ [numel (shape t) / numel s]) (data t))
       else Raise RuntimeError.

(** t.reshape(-1, *s ): the first dimension is inferred *)
Definition reshape_1m {A} (s : list nat) (t : tensor A) : res (tensor A) :=
  if Nat.eqb (numel s) 0 then Raise RuntimeError
  else if Nat.eqb (numel (shape t) mod numel s) 0
       then Ok (mkT ((numel (shape t) / numel s) :: s) (data t))
       else Raise RuntimeError.

(** t.reshape( *s ) for Python integers: at most one -1, inferred from the others; torch refuses other negative
    numbers, several -1 and a -1 that is ambiguous *)
Definition reshape_z {A} (s : list Z) (t : tensor A) : res (tensor A) :=
  if existsb (fun d => Z.ltb d (-1)) s then Raise RuntimeError
  else match List.length (filter (Z.eqb (-1)) s) with
  | 0 => reshape (map Z.to_nat s) t
  | 1 => let n := numel (map Z.to_nat (filter (fun d => negb (Z.eqb (-1) d)) s)) in
         if Nat.eqb n 0 then Raise RuntimeError
         else if Nat.eqb (numel (shape t) mod n) 0
              then Ok (mkT (map (fun d => if Z.eqb (-1) d then numel (shape t) / n else Z.to_nat d) s) (data t))
              else Raise RuntimeError
  | _ => Raise RuntimeError
  end.

(** position of d in p *)
Fixpoint pos_in (d : nat) (p : list nat) : nat :=
  match p with [] => 0 | k :: p' => if Nat.eqb k d then 0 else S (pos_in d p') end.

(** t.permute(p): output dimension k is input dimension p[k] *)
Definition permute {A} (d : A) (p : list nat) (t : tensor A) : tensor A :=
  tab (map (fun k => nth k (shape t) 0) p)
      (fun idx => get d t (map (fun k => nth (pos_in k p) idx 0) (seq 0 (length p)))).

(** dimension numbers may be negative *)
Definition norm_dim (r : nat) (z : Z) : nat :=
  if (z <? 0)%Z then Z.to_nat (z + Z.of_nat r) else Z.to_nat z.

Fixpoint assoc_dim (k : nat) (l : list (nat * nat)) : option nat :=
  match l with [] => None | (a, b) :: l' => if Nat.eqb a k then Some b else assoc_dim k l' end.
Fixpoint fill (ks : list nat) (moved : list (nat * nat)) (rest : list nat) : list nat :=
  match ks with
  | [] => []
  | k :: ks' =>
      match assoc_dim k moved with
      | Some s => s :: fill ks' moved rest
      | None => match rest with [] => [] | r :: rest' => r :: fill ks' moved rest' end
      end
  end.
(** torch.movedim(t, source, destination) *)
Definition movedim {A} (d : A) (src dst : list Z) (t : tensor A) : tensor A :=
  let r := rank t in
  let src' := map (norm_dim r) src in
  let dst' := map (norm_dim r) dst in
  let rest := filter (fun k => negb (existsb (Nat.eqb k) src')) (seq 0 r) in
  permute d (fill (seq 0 r) (combine dst' src') rest) t.

(** t.transpose(1, 2) *)
Definition transpose12 {A} (d : A) (t : tensor A) : res (tensor A) :=
  match shape t with
  | [b; n; m] => Ok (tab [b; m; n] (fun x => get d t [i_ 0 x; i_ 2 x; i_ 1 x]))
  | _ => Raise IndexError
  end.

Fixpoint mapi {A B} (k : nat) (f : nat -> A -> B) (l : list A) : list B :=
  match l with [] => [] | a :: l' => f k a :: mapi (S k) f l' end.

(** torch.flip(t, dims) *)
Definition flip {A} (d : A) (dims : list Z) (t : tensor A) : tensor A :=
  let dims' := map (norm_dim (rank t)) dims in
  tab (shape t)
      (fun idx => get d t (mapi 0 (fun k i => if existsb (Nat.eqb k) dims' then dim t k - 1 - i else i) idx)).

Fixpoint set_nth {A} (k : nat) (a : A) (l : list A) : list A :=
  match l, k with
  | [], _ => []
  | _ :: l', O => a :: l'
  | x :: l', S k' => x :: set_nth k' a l'
  end.

(** t[:, ..., start:stop] along dimension k, with Python's clamping of slice bounds *)
Definition slice {A} (d : A) (k start stop : nat) (t : tensor A) : res (tensor A) :=
  if Nat.ltb k (rank t)
  then let n := dim t k in
       let a := Nat.min start n in
       let e := Nat.min stop n in
       Ok (tab (set_nth k (e - a) (shape t)) (fun idx => get d t (set_nth k (a + nth k idx 0) idx)))
  else Raise IndexError.
(** t[:, ..., start:] *)
Definition slice_from {A} (d : A) (k start : nat) (t : tensor A) : res (tensor A) :=
  slice d k start (dim t k) t.

(** torch.cat(ts, dim=k) *)
Fixpoint cat_pick {A} (d : A) (k : nat) (ts : list (tensor A)) (j : nat) (idx : list nat) : A :=
  match ts with
  | [] => d
  | t :: ts' => if Nat.ltb j (dim t k) then get d t (set_nth k j idx)
                else cat_pick d k ts' (j - dim t k) idx
  end.
Definition cat {A} (d : A) (k : nat) (ts : list (tensor A)) : res (tensor A) :=
  match ts with
  | [] => Raise RuntimeError
  | t :: _ =>
      if Nat.ltb k (rank t) then
        if forallb (fun u => shape_eqb (set_nth k 0 (shape u)) (set_nth k 0 (shape t))) ts
        then Ok (tab (set_nth k (fold_right Nat.add 0 (map (fun u => dim u k) ts)) (shape t))
                     (fun idx => cat_pick d k ts (nth k idx 0) idx))
        else Raise RuntimeError
      else Raise IndexError
  end.

(** t[i] *)
Definition select0 {A} (d : A) (i : nat) (t : tensor A) : tensor A :=
  tab (tl (shape t)) (fun idx => get d t (i :: idx)).
(** t.unsqueeze(0) *)
Definition unsqueeze0 {A} (t : tensor A) : tensor A := mkT (1 :: shape t) (data t).
(** t.squeeze(0) for a first dimension of size 1 *)
Definition squeeze0 {A} (t : tensor A) : tensor A := mkT (tl (shape t)) (data t).
(** t.unsqueeze(k) *)
Definition unsqueeze {A} (k : nat) (t : tensor A) : tensor A :=
  mkT (firstn k (shape t) ++ 1 :: skipn k (shape t)) (data t).
(** t.expand(...) where dimension k (of size 1) is repeated n times *)
Definition expand_dim {A} (d : A) (k n : nat) (t : tensor A) : tensor A :=
  tab (set_nth k n (shape t)) (fun idx => get d t (set_nth k 0 idx)).
(** torch.stack(ts): used for the result of vmap *)
Definition stack {A} (d : A) (ts : list (tensor A)) : res (tensor A) :=
  match ts with
  | [] => Raise ValueError
  | t :: _ => if forallb (fun u => shape_eqb (shape u) (shape t)) ts
              then Ok (mkT (List.length ts :: shape t) (flat_map (@data A) ts))
              else Raise RuntimeError
  end.
(** t[i, ...] = u *)
Definition set0 {A} (d : A) (i : nat) (u t : tensor A) : res (tensor A) :=
  if shape_eqb (shape u) (tl (shape t))
  then Ok (tab (shape t) (fun idx => if Nat.eqb (nth 0 idx 0) i then get d u (tl idx) else get d t idx))
  else Raise RuntimeError.

(** run a fallible function over a list *)
Fixpoint mapM {A B} (f : A -> res B) (l : list A) : res (list B) :=
  match l with
  | [] => Ok []
  | a :: l' => b <- f a ;; bs <- mapM f l' ;; Ok (b :: bs)
  end.

(** functorch.vmap(f)(a, b): f on each pair of samples, results stacked *)
Definition vmap2 {A B C} (da : A) (db : B) (dc : C) (f : tensor A -> tensor B -> res (tensor C))
  (a : tensor A) (b : tensor B) : res (tensor C) :=
  if Nat.eqb (dim a 0) (dim b 0) then
    ts <- mapM (fun i => f (select0 da i a) (select0 db i b)) (seq 0 (dim a 0)) ;; stack dc ts
  else Raise ValueError.

(** ** Arithmetic *)
Section Arith.
  Context {K} `{Num K}.
  Local Open Scope num_scope.

  Notation gt := (get (@n0 K _)).

  Definition fill_with (c : K) (s : list nat) : tensor K := tab s (fun _ => c).
  Definition ones (s : list nat) : tensor K := fill_with n1 s.
  Definition zeros (s : list nat) : tensor K := fill_with n0 s.

  (** element-wise function *)
  Definition emap (f : K -> K) (t : tensor K) : tensor K := mkT (shape t) (map f (data t)).

  (** broadcasting of two shapes (given right-aligned, i.e. reversed) *)
  Fixpoint bshape (a b : list nat) : option (list nat) :=
    match a, b with
    | [], b => Some b
    | a, [] => Some a
    | x :: a', y :: b' =>
        match bshape a' b' with
        | None => None
        | Some r => if Nat.eqb x y then Some (x :: r)
                    else if Nat.eqb x 1 then Some (y :: r)
                    else if Nat.eqb y 1 then Some (x :: r) else None
        end
    end.
  (** index into a broadcast operand of shape s *)
  Definition bidx (s idx : list nat) : list nat :=
    map (fun p => if Nat.eqb (fst p) 1 then 0%nat else snd p)
        (combine s (skipn (List.length idx - List.length s) idx)).
  (** element-wise binary operation with torch broadcasting *)
  Definition bop (f : K -> K -> K) (a b : tensor K) : res (tensor K) :=
    match bshape (rev (shape a)) (rev (shape b)) with
    | None => Raise RuntimeError
    | Some r => Ok (tab (rev r) (fun idx => f (gt a (bidx (shape a) idx)) (gt b (bidx (shape b) idx))))
    end.
  Definition tadd := bop nadd.
  Definition tsub := bop nsub.
  Definition tmul := bop nmul.
  Definition tdiv := bop ndiv.
  (** a += b: in place, so the result must keep a's shape *)
  Definition tadd_ (a b : tensor K) : res (tensor K) :=
    r <- tadd a b ;; if shape_eqb (shape r) (shape a) then Ok r else Raise RuntimeError.

  (** torch.diag_embed(t) *)
  Definition diag_embed (t : tensor K) : res (tensor K) :=
    match shape t with
    | [] => Raise RuntimeError
    | s => Ok (tab (s ++ [last s 0%nat])
                   (fun idx => let r := List.length s in
                               if Nat.eqb (nth (r - 1) idx 0%nat) (nth r idx 0%nat)
                               then gt t (firstn r idx) else n0))
    end.
  (** torch.diagonal(t, dim1=1, dim2=2) *)
  Definition diagonal12 (t : tensor K) : res (tensor K) :=
    match shape t with
    | [b; n; m] => Ok (tab [b; Nat.min n m] (fun x => gt t [i_ 0 x; i_ 1 x; i_ 1 x]))
    | _ => Raise IndexError
    end.
  (** torch.eye(n, n).repeat(b, 1, 1) *)
  Definition eye_repeat (b n : nat) : tensor K :=
    tab3 b n n (fun _ i j => if Nat.eqb i j then n1 else n0).
  (** torch.sum(t, dim=0) *)
  Definition sum0 (t : tensor K) : tensor K :=
    tab (tl (shape t)) (fun idx => bsum (dim t 0) (fun i => gt t (i :: idx))).
  (** torch.sum(t): all entries *)
  Definition sum_all (t : tensor K) : tensor K :=
    tab [] (fun _ => bsum (numel (shape t)) (fun k => nth k (data t) n0)).
  (** torch.sum(t, 1) of a matrix, torch.sum(t, 2) of a cube *)
  Definition sum1 (t : tensor K) : res (tensor K) :=
    match shape t with
    | [b; n] => Ok (tab1 b (fun i => bsum n (fun j => gt t [i; j])))
    | _ => Raise IndexError
    end.
  Definition sum2 (t : tensor K) : res (tensor K) :=
    match shape t with
    | [b; n; m] => Ok (tab2 b n (fun i j => bsum m (fun k => gt t [i; j; k])))
    | _ => Raise IndexError
    end.

  (** ** einsum *)
  (** Parsing of "bij,bj->bi" (blanks ignored, no ellipsis). *)
  Definition label := ascii.
  Fixpoint chars (s : string) : list label :=
    match s with EmptyString => [] | String c s' => if Ascii.eqb c " " then chars s' else c :: chars s' end.
  Fixpoint split_ops (cs cur : list label) : option (list (list label) * list label) :=
    match cs with
    | [] => None
    | c :: cs' =>
        if Ascii.eqb c "," then
          match split_ops cs' [] with
          | Some (ins, out) => Some (rev cur :: ins, out)
          | None => None
          end
        else if Ascii.eqb c "-" then
          match cs' with
          | g :: out => if Ascii.eqb g ">" then Some ([rev cur], out) else None
          | [] => None
          end
        else split_ops cs' (c :: cur)
    end.
  Definition parse_einsum (s : string) : option (list (list label) * list label) :=
    split_ops (chars s) [].

  Definition env := list (label * nat).
  Fixpoint lookup (l : label) (e : env) : option nat :=
    match e with [] => None | (k, v) :: e' => if Ascii.eqb k l then Some v else lookup l e' end.
  Definition val_of (e : env) (l : label) : nat := match lookup l e with Some v => v | None => 0%nat end.
  Fixpoint set_env (l : label) (n : nat) (e : env) : env :=
    match e with
    | [] => [(l, n)]
    | (k, v) :: e' => if Ascii.eqb k l then (k, n) :: e' else (k, v) :: set_env l n e'
    end.
  (** record the size of a label; sizes must agree or be 1 (torch broadcasts size-1 dimensions) *)
  Definition add_size (e : res env) (p : label * nat) : res env :=
    e <- e ;;
    match lookup (fst p) e with
    | None => Ok (set_env (fst p) (snd p) e)
    | Some v => if Nat.eqb v (snd p) then Ok e
                else if Nat.eqb v 1 then Ok (set_env (fst p) (snd p) e)
                else if Nat.eqb (snd p) 1 then Ok e
                else Raise RuntimeError
    end.
  (** a label repeated within one operand ("bii") takes the diagonal: torch raises unless the sizes are equal,
      without broadcasting *)
  Fixpoint own_sizes (ps : list (label * nat)) : bool :=
    match ps with
    | [] => true
    | (l, n) :: ps => forallb (fun p => if Ascii.eqb l (fst p) then Nat.eqb n (snd p) else true) ps && own_sizes ps
    end.
  Fixpoint sizes (ins : list (list label)) (ts : list (tensor K)) (e : res env) : res env :=
    match ins, ts with
    | [], [] => e
    | ls :: ins', t :: ts' =>
        if Nat.eqb (List.length ls) (rank t)
        then if own_sizes (combine ls (shape t))
             then sizes ins' ts' (fold_left add_size (combine ls (shape t)) e)
             else Raise RuntimeError
        else Raise RuntimeError
    | _, _ => Raise RuntimeError
    end.
  Fixpoint esum (ls : env) (e : env) (f : env -> K) : K :=
    match ls with
    | [] => f e
    | (l, n) :: ls' => bsum n (fun i => esum ls' ((l, i) :: e) f)
    end.
  (** one operand's entry; size-1 dimensions are broadcast *)
  Definition operand (ls : list label) (t : tensor K) (e : env) : K :=
    gt t (map (fun p => if Nat.eqb (snd p) 1 then 0%nat else val_of e (fst p)) (combine ls (shape t))).
  Fixpoint eprod (acc : K) (ins : list (list label)) (ts : list (tensor K)) (e : env) : K :=
    match ins, ts with
    | ls :: ins', t :: ts' => eprod (acc * operand ls t e) ins' ts' e
    | _, _ => acc
    end.
  Definition eterm (ins : list (list label)) (ts : list (tensor K)) (e : env) : K :=
    match ins, ts with
    | ls :: ins', t :: ts' => eprod (operand ls t e) ins' ts' e
    | _, _ => n1
    end.
  Definition mem_label (l : label) (ls : list label) : bool := existsb (Ascii.eqb l) ls.
  (** torch.einsum(s, *ts ) *)
  Definition einsum (s : string) (ts : list (tensor K)) : res (tensor K) :=
    match parse_einsum s with
    | None => Raise RuntimeError
    | Some (ins, out) =>
        e <- sizes ins ts (Ok []) ;;
        if forallb (fun l => match lookup l e with Some _ => true | None => false end) out
        then let summed := filter (fun p => negb (mem_label (fst p) out)) e in
             Ok (tab (map (val_of e) out)
                     (fun idx => esum summed (combine out idx) (eterm ins ts)))
        else Raise RuntimeError
    end.
End Arith.

(** Z-valued coordinates with zero padding, convolutions, pooling: see Conv.v *)
