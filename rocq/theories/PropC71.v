(** C71: a Sequential and its slices. *)
From Coq Require Import List Arith ZArith Bool.
From Verif Require Import Scalar Tensor Conv Abstract Simple Module Domain Calls History Params Examples Slice SliceProofs SliceMore SliceWitness SliceProg SliceProgProofs SliceProgWitness.
Import ListNotations.
Local Open Scope nat_scope.
Local Open Scope list_scope.

(** wanted: model and model[i:j], used in turn in any way, answer as networks of their own.  The forward pass does, for every input *)
Theorem C71_forward : forall (K : Type) (N : Num K) (CR : CRing K) (ms : list (module K)) rs hist q (x : tensor K),
  sh_answer ms rs (sh_run ms rs (fresh ms rs) hist) (q, Forward x) = (y <- fwd (Seq true (sub (nth q rs (0, 0)) ms)) x ;; Ok (VT y)).
Proof. exact (fun K N CR ms rs hist q x => slice_forward ms rs (sh_run ms rs (fresh ms rs) hist) q x). Qed.
Print Assumptions C71_forward.
(** and every product with val=None, after any calls on any of them *)
Theorem C71_products : forall (K : Type) (N : Num K) (CR : CRing K) (ms : list (module K)) rs hist q s s' b (x : tensor K) c h,
  typed (Seq true (sub (nth q rs (0, 0)) ms)) s s' -> 0 < b -> wf x -> shape x = b :: s -> point c = x -> wrt_of c <> Other ->
  sh_answer ms rs (sh_run ms rs (fresh ms rs) hist) (q, pass_val None c) = answer (Seq true (sub (nth q rs (0, 0)) ms)) h (pass_val None c).
Proof. exact (fun K N CR ms rs hist q s s' b x c h => slice_none ms rs (sh_run ms rs (fresh ms rs) hist) q s s' b x c h). Qed.
Print Assumptions C71_products.
(** with a saved val: after calls at x on the same network and arbitrary calls on the others, provided that the layers they have in common
    are neither pooling layers nor networks themselves *)
Theorem C71_val_partial : forall (K : Type) (N : Num K) (CR : CRing K) (ms : list (module K)) rs hist q s s' b (x y : tensor K) cs c h,
  q < length rs -> typed (Seq true (sub (nth q rs (0, 0)) ms)) s s' -> 0 < b -> wf x -> shape x = b :: s ->
  fwd (Seq true (sub (nth q rs (0, 0)) ms)) x = Ok y ->
  Forall (fun qc => if fst qc =? q then point (snd qc) = x else share_plain ms (nth q rs (0, 0)) (nth (fst qc) rs (0, 0))) cs ->
  point c = x -> wrt_of c <> Other ->
  sh_answer ms rs (sh_run ms rs (fresh ms rs) (hist ++ (q, Forward x) :: cs)) (q, pass_val (Some y) c) =
  answer (Seq true (sub (nth q rs (0, 0)) ms)) h (pass_val None c).
Proof. exact (fun K N CR ms rs hist q s s' b x y cs c h => slice_val ms rs hist q s s' b x y cs c h). Qed.
Print Assumptions C71_val_partial.
Example C71_case : typed (Seq true (sub (0, 3) tailed)) [1] [1] /\ share_plain tailed (0, 3) (1, 2) /\ share_plain tailed (0, 3) (1, 1) /\
  ~ share_plain tailed (0, 3) (0, 1) /\ fwd (Seq true (sub (0, 3) tailed)) (tz [1; 1] [1]%Z) = Ok (tz [1; 1] [2]%Z) /\
  length (st_fm (view tail_ranges (sh_run tailed tail_ranges (fresh tailed tail_ranges) ((0, Forward (tz [1; 1] [1]%Z)) :: between)) 0)) = 9 /\
  sh_answer tailed tail_ranges (sh_run tailed tail_ranges (fresh tailed tail_ranges) ((0, Forward (tz [1; 1] [1]%Z)) :: between))
    (0, Vjp (tz [1; 1] [1]%Z) (Some (tz [1; 1] [2]%Z)) (tz [1; 1] [1]%Z) Input) = Ok (VT (tz [1; 1] [2]%Z)).
Proof. exact tailed_case. Qed.
(** otherwise a call of the slice on another batch silently changes the products of the model at the saved val *)
Theorem C71_refuted : exists (ms : list (module Z)) rs s s' b (x x' y v : tensor Z) t t',
  rs = [(0, length ms); (0, 1)] /\ typed (Seq true ms) s s' /\ 0 < b /\ wf x /\ shape x = b :: s /\ wf x' /\ shape x' = b :: s /\ fwd (Seq true ms) x = Ok y /\
  answer (Seq true ms) (init (Seq true ms)) (Vjp x None v Input) = Ok (VT t) /\
  sh_answer ms rs (sh_run ms rs (fresh ms rs) [(0, Forward x)]) (0, Vjp x (Some y) v Input) = Ok (VT t) /\
  sh_answer ms rs (sh_run ms rs (fresh ms rs) [(0, Forward x); (1, Forward x')]) (0, Vjp x (Some y) v Input) = Ok (VT t') /\ t <> t'.
Proof. exact slice_spoils_val. Qed.
Print Assumptions C71_refuted.
(** and a call of the model changes those of the slice; here the common layer is a MaxPool2d *)
Theorem C71_refuted_pool : exists (ms : list (module Z)) rs (x x' y v : tensor Z) t t',
  rs = [(0, length ms); (1, 1)] /\ shape x = [1; 2; 4; 4] /\ shape x' = [1; 2; 4; 4] /\ fwd (Seq true (sub (1, 1) ms)) x = Ok y /\
  answer (Seq true (sub (1, 1) ms)) (init (Seq true (sub (1, 1) ms))) (Vjp x None v Input) = Ok (VT t) /\
  sh_answer ms rs (sh_run ms rs (fresh ms rs) [(1, Forward x); (0, Forward x')]) (1, Vjp x (Some y) v Input) = Ok (VT t') /\ t <> t'.
Proof. exact model_spoils_slice. Qed.
Print Assumptions C71_refuted_pool.
(** slice.set_weight(w) replaces the part of model.get_weight() that belongs to the layers of the slice, and nothing else *)
Theorem C71_weights : forall (K : Type) (N : Num K) (ms : list (module K)) r (w : tensor K),
  sized (Seq true ms) -> params (Seq true (sub r ms)) <> [] -> shape w = [n_params (Seq true (sub r ms))] -> wf w ->
  exists ms', sh_set_weight ms r w = (ms', Ok tt) /\ get_weight (Seq true (sub r ms')) = Ok w /\
    (forall r', fst r' + snd r' <= fst r \/ fst r + snd r <= fst r' -> Seq true (sub r' ms') = Seq true (sub r' ms)) /\
    forall w0, get_weight (Seq true ms) = Ok w0 -> let a := n_params (Seq true (firstn (fst r) ms)) in
      get_weight (Seq true ms') = Ok (mkT (shape w0) (firstn a (data w0) ++ data w ++ skipn (a + length (data w)) (data w0))).
Proof. exact (fun K N ms r w => slice_weight ms r w). Qed.
Print Assumptions C71_weights.
Example C71_weights_case : sized (Seq true two_linear) /\ params (Seq true (sub (2, 1) two_linear)) <> [] /\
  get_weight (Seq true (fst (sh_set_weight two_linear (2, 1) (tz [1] [7]%Z)))) = Ok (tz [2] [2; 7]%Z).
Proof. exact weight_case. Qed.
(** the feature maps of a Sequential after one call: the input, or what was there before, followed by what the layers returned *)
Theorem C71_outputs : forall (K : Type) (N : Num K) (ms : list (module K)) s (c : call K),
  let s' := fst (perform (Seq true ms) s c) in
  st_fm s' = (if restarts c then [point c] else st_fm s) ++ produced c (st_fm s) (st_fm s').
Proof. exact (fun K N ms s c => outputs ms s c). Qed.
Print Assumptions C71_outputs.
(** after any program that makes slices, calls them and sets their weights, a Sequential has the forward pass and the products of a separate
    network with the current parameters *)
Theorem C71_program : forall (K : Type) (N : Num K) (CR : CRing K) (ms : list (module K)) es q r s s' b (x : tensor K) c h,
  let W := ev_run (start ms) es in
  sized (Seq true ms) -> nth_error (wd_rs W) q = Some r -> typed (Seq true (sub r ms)) s s' -> 0 < b -> wf x -> shape x = b :: s -> point c = x -> wrt_of c <> Other ->
  typed (Seq true (sub r (wd_ms W))) s s' /\
  ev_answer W q (Forward x) = (y <- fwd (Seq true (sub r (wd_ms W))) x ;; Ok (VT y)) /\
  ev_answer W q (pass_val None c) = answer (Seq true (sub r (wd_ms W))) h (pass_val None c).
Proof. exact (fun K N CR ms es q r s s' b x c h => prog_all ms es q r s s' b x c h). Qed.
Print Assumptions C71_program.
(** setting the weight of a slice replaces its part of the weights of the model, in any program, and nothing else *)
Theorem C71_program_set : forall (K : Type) (N : Num K) (CR : CRing K) (ms : list (module K)) es q r (w : tensor K),
  let W := ev_run (start ms) es in let W' := ev_run (start ms) (es ++ [SetWeight q w]) in
  sized (Seq true ms) -> nth_error (wd_rs W) q = Some r -> params (Seq true (sub r (wd_ms W))) <> [] ->
  shape w = [n_params (Seq true (sub r (wd_ms W)))] -> wf w ->
  wd_rs W' = wd_rs W /\ wd_sh W' = wd_sh W /\ get_weight (Seq true (sub r (wd_ms W'))) = Ok w /\
  (forall r', fst r' + snd r' <= fst r \/ fst r + snd r <= fst r' -> Seq true (sub r' (wd_ms W')) = Seq true (sub r' (wd_ms W))) /\
  forall w0, get_weight (Seq true (wd_ms W)) = Ok w0 -> let a := n_params (Seq true (firstn (fst r) (wd_ms W))) in
    get_weight (Seq true (wd_ms W')) = Ok (mkT (shape w0) (firstn a (data w0) ++ data w ++ skipn (a + length (data w)) (data w0))).
Proof. exact (fun K N CR ms es q r w => prog_set ms es q r w). Qed.
Print Assumptions C71_program_set.
(** and with a value saved at x, until a weight is set: new slices, calls at x, and arbitrary calls on Sequentials that share only layers without memory *)
Theorem C71_program_val_partial : forall (K : Type) (N : Num K) (CR : CRing K) (ms : list (module K)) hist q r s s' b (x y : tensor K) es c h,
  let W := ev_run (start ms) hist in
  sized (Seq true ms) -> nth_error (wd_rs W) q = Some r -> typed (Seq true (sub r ms)) s s' -> 0 < b -> wf x -> shape x = b :: s ->
  fwd (Seq true (sub r (wd_ms W))) x = Ok y -> calm (wd_ms W) (wd_rs W) q x es -> point c = x -> wrt_of c <> Other ->
  ev_answer (ev_run (start ms) (hist ++ Use q (Forward x) :: es)) q (pass_val (Some y) c) = answer (Seq true (sub r (wd_ms W))) h (pass_val None c).
Proof. exact (fun K N CR ms hist q r s s' b x y es c h => prog_val_all ms hist q r s s' b x y es c h). Qed.
Print Assumptions C71_program_val_partial.
Example C71_program_case : let W := ev_run (start tailed) before in
  sized (Seq true tailed) /\ nth_error (wd_rs W) 0 = Some (0, 3) /\ typed (Seq true (sub (0, 3) tailed)) [1] [1] /\ calm (wd_ms W) (wd_rs W) 0 (tz [1; 1] [1]%Z) after /\
  fwd (Seq true (sub (0, 3) (wd_ms W))) (tz [1; 1] [1]%Z) = Ok (tz [1; 1] [5]%Z) /\
  ev_answer (ev_run (start tailed) (before ++ Use 0 (Forward (tz [1; 1] [1]%Z)) :: after)) 0 (Vjp (tz [1; 1] [1]%Z) (Some (tz [1; 1] [5]%Z)) (tz [1; 1] [1]%Z) Input) =
    Ok (VT (tz [1; 1] [5]%Z)).
Proof. exact prog_case. Qed.
(** a set_weight between saving and using the value mixes the two sets of parameters *)
Theorem C71_program_refuted_set : exists (ms : list (module Z)) (x y v w t t' t2 : tensor Z),
  answer (Seq true ms) (init (Seq true ms)) (Vjp x None v Weight) = Ok (VT t) /\
  fwd (Seq true ms) x = Ok y /\
  let W := ev_run (start ms) [Make (0, length ms); Make (1, 1); Use 0 (Forward x); SetWeight 1 w] in
  ev_answer W 0 (Vjp x (Some y) v Weight) = Ok (VT t') /\ answer (Seq true (wd_ms W)) (init (Seq true ms)) (Vjp x None v Weight) = Ok (VT t2) /\ t' <> t /\ t' <> t2.
Proof. exact set_spoils_val. Qed.
Print Assumptions C71_program_refuted_set.
