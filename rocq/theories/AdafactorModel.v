(** Adafactor: t5x/adafactor.py.

    Arrays are a shape and a function from indices.  The arithmetic is abstract, so
    that floating point numbers are covered; a reduction depends on the list of the
    reduced elements in row-major order.  The operations of numpy are modelled from its
    documentation.  The types of the arrays are not modelled but for the casts. *)
From Coq Require Import Ascii Bool List ZArith.
From Verif Require Import Str PyDict StateModel NdArray OptaxModel.
Import ListNotations.

(** * Arrays *)
(** The indices of a shape, in row-major order. *)
Fixpoint indices (s : list nat) : list (list nat) :=
  match s with
  | [] => [[]]
  | n :: s' => flat_map (fun i => map (cons i) (indices s')) (seq 0 n)
  end.
Definition mem (k : nat) (axes : list nat) : bool := existsb (Nat.eqb k) axes.
(** The entries at [axes] removed (np.delete), or replaced. *)
Fixpoint drop_from {X} (k : nat) (axes : list nat) (l : list X) : list X :=
  match l with
  | [] => []
  | x :: r => if mem k axes then drop_from (S k) axes r else x :: drop_from (S k) axes r
  end.
Fixpoint put_from {X} (k : nat) (axes : list nat) (v : X) (l : list X) : list X :=
  match l with
  | [] => []
  | x :: r => (if mem k axes then v else x) :: put_from (S k) axes v r
  end.
Definition drop {X} (axes : list nat) (l : list X) : list X := drop_from 0 axes l.
Definition put {X} (axes : list nat) (v : X) (l : list X) : list X := put_from 0 axes v l.

Fixpoint nodupb (l : list nat) : bool :=
  match l with [] => true | x :: r => negb (mem x r) && nodupb r end.
Definition axes_ok (n : nat) (axes : list nat) : bool := forallb (fun k => k <? n) axes && nodupb axes.

(** Broadcasting: the shapes are aligned at the end. *)
Definition bdim (a b : nat) : option nat :=
  if a =? b then Some a else if a =? 1 then Some b else if b =? 1 then Some a else None.
Fixpoint bshape_rev (r s : list nat) : option (list nat) :=
  match r, s with
  | [], _ => Some s
  | _, [] => Some r
  | a :: r', b :: s' =>
      match bdim a b, bshape_rev r' s' with
      | Some d, Some u => Some (d :: u)
      | _, _ => None
      end
  end.
Definition bshape (s t : list nat) : option (list nat) := option_map (@rev nat) (bshape_rev (rev s) (rev t)).
(** The index of the element of an array of shape [s] that goes to index [i]. *)
Definition proj (s i : list nat) : list nat :=
  map (fun '(d, x) => if d =? 1 then 0 else x) (combine s (skipn (length i - length s) i)).

Section Arrays.
  Context {F : Type}.
  Notation arr := (arr F).
  Definition scalar (x : F) : arr := mk_arr [] (fun _ => x).
  Definition full (s : list nat) (x : F) : arr := mk_arr s (fun _ => x).
  Definition amap (f : F -> F) (a : arr) : arr := mk_arr (shape a) (fun i => f (at_ a i)).
  Definition bin (f : F -> F -> F) (a b : arr) : option arr :=
    match bshape (shape a) (shape b) with
    | Some s => Some (mk_arr s (fun i => f (at_ a (proj (shape a) i)) (at_ b (proj (shape b) i))))
    | None => None
    end.
  (** jnp.expand_dims(a, axis=axes) *)
  Fixpoint expand_from (k n : nat) (axes s : list nat) : list nat :=
    match n with
    | 0 => []
    | S n' => if mem k axes then 1 :: expand_from (S k) n' axes s
              else match s with x :: r => x :: expand_from (S k) n' axes r | [] => [] end
    end.
  Definition expand (axes : list nat) (a : arr) : option arr :=
    let n := length (shape a) + length axes in
    if axes_ok n axes then Some (mk_arr (expand_from 0 n axes (shape a)) (fun i => at_ a (drop axes i))) else None.
  (** jnp.mean(a, axis=axes, keepdims=keep) *)
  Definition list_eqb (a b : list nat) : bool := if list_eq_dec Nat.eq_dec a b then true else false.
  Definition reduce (mean : list F -> F) (axes : list nat) (keep : bool) (a : arr) : option arr :=
    if axes_ok (length (shape a)) axes then
      let rest := fun l => if keep then put axes 0 l else drop axes l in
      Some (mk_arr (if keep then put axes 1 (shape a) else drop axes (shape a))
              (fun i => mean (map (at_ a) (filter (fun j => list_eqb (rest j) i) (indices (shape a))))))
    else None.
End Arrays.

(** * Factorization rules *)
(** FactorDim, 72-79, and the rules: None, HEURISTIC_RULE or a tuple. *)
Inductive fdim := Unfactored | Batch | Row | Column.
Definition fdim_eqb (a b : fdim) : bool :=
  match a, b with
  | Unfactored, Unfactored | Batch, Batch | Row, Row | Column, Column => true
  | _, _ => false
  end.
Inductive rule := NoRule | Heuristic | Dims (l : list fdim).
Inductive factor := NotFactored | ByHeuristic | Factored (rows cols : list nat).

Fixpoint where_from (k : nat) (d : fdim) (l : list fdim) : list nat :=
  match l with
  | [] => []
  | x :: r => if fdim_eqb x d then k :: where_from (S k) d r else where_from (S k) d r
  end.
(** tuple(idx for idx, x in enumerate(rule) if x == d) *)
Definition where_ (d : fdim) (l : list fdim) : list nat := where_from 0 d l.

(** _parse_rule, 318-395, with fallback_to_heuristics, which it is always called with:
    the dimensions to average over and those to factor; None: ValueError. *)
Definition parse_rule (r : rule) (s : list nat) : option (list nat * factor) :=
  let n := length s in
  match r with
  | NoRule => Some (seq 0 n, NotFactored)
  | Heuristic => if 2 <? n then None else Some (seq 0 n, ByHeuristic)
  | Dims l =>
      if negb (length l =? n) then None
      else
        let batch := where_ Batch l in
        if (n <=? 2) && (match batch with [] => true | _ => false end) then Some (seq 0 n, ByHeuristic)
        else Some (drop batch (seq 0 n),
                   match where_ Row l, where_ Column l with
                   | [], [] => NotFactored
                   | rows, cols => Factored rows cols
                   end)
  end.

(** apply_rules of set_param_axes, 642-656: the rules for the names of the axes of a
    parameter; [lookup]: logical_factor_rules and factor_name_to_factordim, None being
    an unknown name.  None: it raises. *)
Fixpoint lookup_all (lookup : str -> option fdim) (axes : list str) : option (list fdim) :=
  match axes with
  | [] => Some []
  | x :: r => match lookup x, lookup_all lookup r with
              | Some d, Some l => Some (d :: l)
              | _, _ => None
              end
  end.
Definition apply_rules (lookup : str -> option fdim) (axes : list str) : option (list fdim) :=
  match lookup_all lookup axes with
  | None => None
  | Some l =>
      let has d := existsb (fdim_eqb d) l in
      if has Row && has Column && has Unfactored then None
      else if negb (has Row) || negb (has Column) then
        Some (map (fun x => match x with Row | Column => Unfactored | _ => x end) l)
      else Some l
  end.

(** HParamMap.__getitem__, 149-153; a rule is given by whether its pattern is found in
    the path (re.search). *)
Fixpoint hparam {X} (rules : list ((str -> bool) * X)) (key : str) : option X :=
  match rules with
  | [] => None
  | (r, p) :: rest => if r key then Some p else hparam rest key
  end.

(** * The optimizer *)
(** Arithmetic: the operations used, [rsqrt] being x ** -0.5. *)
Record ops := mk_ops {
  num : Type;
  zero : num; one : num;
  add : num -> num -> num; sub : num -> num -> num; mul : num -> num -> num; div : num -> num -> num;
  maximum : num -> num -> num; minimum : num -> num -> num;
  sqrt : num -> num; rsqrt : num -> num; pow : num -> num -> num;
  mean : list num -> num; sum : list num -> num;
  is_zero : num -> bool; is_nan : num -> bool;
  as_float32 : num -> num; as_momentum : num -> num; as_param : num -> num }.

Section Adafactor.
  Variable K : ops.
  Notation num := (num K).
  Notation arr := (arr num).

  (** _AdafactorHyperParams, 163-183.  [decay]: _decay_rate_pow(step - step_offset,
      exponent=decay_rate) for the step; [factor_map] and [scale_by] as functions of the
      path that may raise (None), an empty factor map being no factor map; the options
      without a value and those that are zero are the same for [lr_exponent] and
      [global_norm]. *)
  Record hyper := mk_hyper {
    learning_rate : option num;
    factored : bool;
    scale_by : str -> option bool;
    beta1 : option num;
    decay : Z -> num;
    clipping : option num;
    weight_decay : option num;
    min_dim : nat;
    eps1 : num; eps2 : num;
    factor_map : option (str -> option rule);
    lr_exponent : option num;
    global_norm : option num;
    max_scale : option num;
    skip_nan : bool }.

  (** _AdafactorParamState, 186-190. *)
  Record pstate := mk_pstate { v_row : arr; v_col : arr; v : arr; m : arr }.

  (** np.argsort, some order of the positions that sorts. *)
  Variable argsort : list nat -> list nat.

  (** _factored_dims, 397-417 *)
  Definition factored_dims (own : hyper) (s : list nat) : factor :=
    if negb (factored own) || (length s <? 2) then NotFactored
    else
      let dims := argsort s in
      let second := nth (length s - 2) dims 0 in
      let last := nth (length s - 1) dims 0 in
      if nth second s 0 <? min_dim own then NotFactored
      else Factored [second] [last].

  (** The choice of the rule, 422-429 and 481-488. *)
  Definition rule_for (own : hyper) (path : str) : option rule :=
    if factored own then
      match factor_map own with
      | Some f => f path
      | None => Some Heuristic
      end
    else Some NoRule.

  (** init_param_state, 419-449: it needs the shape of the parameter only. *)
  Definition init_param_state (own : hyper) (s : list nat) (path : str) : option pstate :=
    match rule_for own path with
    | None => None
    | Some r =>
        match parse_rule r s with
        | None => None
        | Some (_, f) =>
            let none := full [1] (zero K) in
            let m0 := match beta1 own with Some _ => full s (zero K) | None => none end in
            Some match (match f with ByHeuristic => factored_dims own s | _ => f end) with
                 | Factored d1 d0 => mk_pstate (full (drop d0 s) (zero K)) (full (drop d1 s) (zero K)) none m0
                 | _ => mk_pstate none none (full s (zero K)) m0
                 end
        end
    end.

  Notation "'let*' x := e 'in' f" := (match e with Some x => f | None => None end)
    (at level 200, x name, e at level 100, f at level 200).
  Notation "a +' b" := (bin (add K) a b) (at level 50).
  Notation "a -' b" := (bin (sub K) a b) (at level 50).
  Notation "a *' b" := (bin (mul K) a b) (at level 40).
  Notation "a /' b" := (bin (div K) a b) (at level 40).

  (** decay_rate * old + mixing_rate * new, with scalars. *)
  Definition moving (rate : num) (old new : arr) : option arr :=
    let* a := scalar rate *' old in
    let* b := scalar (sub K (one K) rate) *' new in
    a +' b.

  (** jnp.where(jnp.isnan(new), old, new) *)
  Definition unless_nan (old new : arr) : option arr := bin (fun o n => if is_nan K n then o else n) old new.

  (** The weight decay rate, 478-481. *)
  Definition decay_weight (hp : hyper) (lr : num) : option num :=
    match lr_exponent hp with
    | None => weight_decay hp
    | Some e =>
        let w := match weight_decay hp with Some w => if is_zero K w then one K else w | None => one K end in
        Some (mul K w (pow K lr e))
    end.

  (** The scale of the update, 497-510. *)
  Definition update_scale (hp : hyper) (lr : num) (averaging : list nat) (path : str) (param : arr) : option arr :=
    match scale_by hp path with
    | None => None
    | Some false => Some (scalar lr)
    | Some true =>
        let* sq := param *' param in
        let* mn := reduce (mean K) averaging true sq in
        let scale := amap (sqrt K) mn in
        let* low := bin (maximum K) scale (scalar (eps2 hp)) in
        let* high := match max_scale hp with
                     | Some b => bin (minimum K) low (scalar b)
                     | None => Some low
                     end in
        scalar lr *' high
    end.

  (** The new statistics and the direction of the update, 516-549. *)
  Definition statistics (hp : hyper) (step : Z) (f : factor) (state : pstate) (grad : arr) : option (arr * (arr * arr * arr)) :=
    let none := full [1] (zero K) in
    let rate := decay hp step in
    let* sq0 := grad *' grad in
    let* grad_sqr := sq0 +' scalar (eps1 hp) in
    match f with
    | Factored d1 d0 =>
        let* mr := reduce (mean K) d0 false grad_sqr in
        let* mc := reduce (mean K) d1 false grad_sqr in
        let* new_row := moving rate (v_row state) mr in
        let* new_col := moving rate (v_col state) mc in
        let reduced := map (fun d => d - length (filter (fun e => e <? d) d0)) d1 in
        let* rc := reduce (mean K) reduced true new_row in
        let* quot := new_row /' rc in
        let row_factor := amap (rsqrt K) quot in
        let col_factor := amap (rsqrt K) new_col in
        let* er := expand d0 row_factor in
        let* ec := expand d1 col_factor in
        let* y1 := grad *' er in
        let* y := y1 *' ec in
        Some (y, (new_row, new_col, none))
    | _ =>
        let* new_v := moving rate (v state) grad_sqr in
        let* y := grad *' amap (rsqrt K) new_v in
        Some (y, (none, none, new_v))
    end.

  (** Clipping, 551-557. *)
  Definition clip (hp : hyper) (averaging : list nat) (y : arr) : option arr :=
    match clipping hp with
    | None => Some y
    | Some c =>
        let* sq := y *' y in
        let* mn := reduce (mean K) averaging true sq in
        let* q := amap (sqrt K) mn /' scalar c in
        let* den := bin (maximum K) (scalar (one K)) q in
        y /' den
    end.

  (** Momentum, 559-563: what is subtracted and the new state. *)
  Definition with_momentum (hp : hyper) (state : pstate) (sub0 : arr) : option (arr * arr) :=
    match beta1 hp with
    | None => Some (sub0, full [1] (zero K))
    | Some b =>
        let* new_m := moving b (m state) sub0 in
        Some (new_m, amap (as_momentum K) new_m)
    end.

  (** apply_param_gradient, 464-578; [own]: self.hyper_params. *)
  Definition apply_param_gradient (own hp : hyper) (step : Z) (param : arr) (state : pstate) (grad0 : arr) (path : str)
    : option (arr * pstate) :=
    let* lr := learning_rate hp in
    let* r := rule_for own path in
    let* pr := parse_rule r (shape param) in
    let averaging := fst pr in
    let grad := amap (as_float32 K) grad0 in
    let* scale := update_scale hp lr averaging path param in
    let f := match snd pr with ByHeuristic => factored_dims own (shape param) | x => x end in
    let* yu := statistics hp step f state grad in
    let* y := clip hp averaging (fst yu) in
    let* sub0 := scale *' y in
    let* sm := with_momentum hp state sub0 in
    let* base := match decay_weight hp lr with
                 | Some w => scalar (sub K (one K) w) *' param
                 | None => Some param
                 end in
    let* new := base -' fst sm in
    let '(nr, nc, nv) := snd yu in
    if skip_nan hp then
      let* nr' := unless_nan (v_row state) nr in
      let* nc' := unless_nan (v_col state) nc in
      let* nv' := unless_nan (v state) nv in
      let* nm' := unless_nan (m state) (snd sm) in
      let* np := unless_nan param new in
      Some (amap (as_param K) np, mk_pstate nr' nc' nv' nm')
    else Some (amap (as_param K) new, mk_pstate nr nc nv (snd sm)).

  (** ** All the parameters *)
  (** The clipping by the global norm in apply_gradient, 602-611. *)
  Definition global_scale (threshold : num) (grads : list arr) : num :=
    let norms := map (fun g => sum K (map (fun i => mul K (at_ g i) (at_ g i)) (indices (shape g)))) grads in
    let norm := sqrt K (sum K norms) in
    mul K threshold (minimum K (div K (one K) threshold) (div K (one K) norm)).

  Fixpoint all_some {X} (l : list (option X)) : option (list X) :=
    match l with
    | [] => Some []
    | Some x :: r => match all_some r with Some xs => Some (x :: xs) | None => None end
    | None :: _ => None
    end.
  (** _restore, 90-95; whether the result is frozen is not modelled. *)
  Definition restore {X} (d : list (str * X)) : option (tree X) :=
    match unflatten_paths X (map (fun kv => (split (fst kv), Leaf (snd kv))) d) [] with
    | Some u => Some (Node u)
    | None => None
    end.
  (** utils.flatten_dict_string_keys, where all that is kept are leaves. *)
  Definition flat_leaves {X} (t : tree X) : option (list (str * X)) :=
    match flatten X false t with
    | None => None
    | Some d => Some (flat_map (fun '(k, x) => match x with Leaf a => [(k, a)] | Node _ => [] end) d)
    end.

  (** init_state, 451-462 *)
  Definition init_state (own : hyper) (params : tree arr) : option (Z * tree pstate) :=
    let* flat := flat_leaves params in
    let* states := all_some (map (fun '(k, p) => init_param_state own (shape p) k) flat) in
    let* t := restore (mk_dict (combine (map fst flat) states)) in
    Some (0%Z, t).

  (** apply_gradient, 580-627 *)
  Definition apply_gradient (own hp : hyper) (params : tree arr) (step : Z) (states : tree pstate) (grads : tree arr)
    : option (tree arr * (Z * tree pstate)) :=
    let* flat := flat_leaves params in
    let* sflat := flat_leaves states in
    let* ss := all_some (map (fun '(k, _) => pget str_eqb sflat k) flat) in
    let* gflat := flat_leaves grads in
    let* gs0 := all_some (map (fun '(k, _) => pget str_eqb gflat k) flat) in
    let* gs := match global_norm hp with
               | None => Some gs0
               | Some t => let c := global_scale t gs0 in Some (map (amap (fun x => mul K x c)) gs0)
               end in
    let* out := all_some (map (fun '((k, p), (s, g)) => apply_param_gradient own hp step p s g k)
                              (combine flat (combine ss gs))) in
    let* np := restore (mk_dict (combine (map fst flat) (map fst out))) in
    let* ns := restore (mk_dict (combine (map fst flat) (map snd out))) in
    Some (np, ((step + 1)%Z, ns)).

  (** factor_rule of derive_logical_axes, 669-675: the axes of the arrays of the state
      for the axes of a parameter, v_row, v_col, v and m; beta1 is tested as a truth
      value. *)
  Definition state_axes {A} (own : hyper) (axes : A) (st : pstate) : option A * option A * option A * option A :=
    (None, None,
     if list_eqb (shape (v st)) [1] then None else Some axes,
     match beta1 own with Some b => if is_zero K b then None else Some axes | None => None end).
End Adafactor.
