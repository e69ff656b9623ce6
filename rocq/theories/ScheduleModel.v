(** Learning-rate schedules: create_learning_rate_scheduler in t5x/utils.py 850-923.

    Numbers are reals with the special values of IEEE arithmetic; rounding,
    overflow and the final cast to float32 are not modelled. *)
From Coq Require Import List ZArith Reals Ascii String Bool.
Import ListNotations.
Local Open Scope string_scope.

(** * Numbers *)
Inductive num := Fin (r : R) | Inf (pos : bool) | NaN.

Definition pos (r : R) : bool := if Rlt_dec 0 r then true else false.
(** Multiplication: 0 * inf is NaN. *)
Definition mul (x y : num) : num :=
  match x, y with
  | NaN, _ | _, NaN => NaN
  | Fin a, Fin b => Fin (a * b)
  | Fin a, Inf s | Inf s, Fin a => if Req_EM_T a 0 then NaN else Inf (Bool.eqb (pos a) s)
  | Inf s, Inf s' => Inf (Bool.eqb s s')
  end.
(** Division: x / 0 is infinite with the sign of x, and NaN for x = 0.  All
    divisors of the schedules are integers or square roots, so a zero divisor is
    +0. *)
Definition div (x y : num) : num :=
  match x, y with
  | NaN, _ | _, NaN => NaN
  | Fin a, Fin b =>
      if Req_EM_T b 0 then (if Req_EM_T a 0 then NaN else Inf (pos a)) else Fin (a / b)
  | Fin _, Inf _ => Fin 0
  | Inf s, Fin b => if Req_EM_T b 0 then Inf s else Inf (Bool.eqb s (pos b))
  | Inf _, Inf _ => NaN
  end.
(** jnp.minimum and jnp.maximum: NaN if one argument is. *)
Definition nmin (x y : num) : num :=
  match x, y with
  | NaN, _ | _, NaN => NaN
  | Fin a, Fin b => Fin (Rmin a b)
  | Inf true, z | z, Inf true => z
  | Inf false, _ | _, Inf false => Inf false
  end.
Definition nmax (x y : num) : num :=
  match x, y with
  | NaN, _ | _, NaN => NaN
  | Fin a, Fin b => Fin (Rmax a b)
  | Inf false, z | z, Inf false => z
  | Inf true, _ | _, Inf true => Inf true
  end.
Definition nsqrt (x : num) : num :=
  match x with
  | Fin a => if Rlt_dec a 0 then NaN else Fin (sqrt a)
  | Inf true => Inf true
  | _ => NaN
  end.
(** x % 1.0 *)
Definition nfrac (x : num) : num := match x with Fin a => Fin (frac_part a) | _ => NaN end.
Definition ncos (x : num) : num := match x with Fin a => Fin (cos a) | _ => NaN end.
Definition nadd1 (x : num) : num := match x with Fin a => Fin (1 + a) | y => y end.

(** * Factor strings *)
(** str.split with a one-character separator. *)
Fixpoint split_on (c : ascii) (s : string) : list string :=
  match s with
  | EmptyString => [EmptyString]
  | String a r =>
      if Ascii.eqb a c then EmptyString :: split_on c r
      else match split_on c r with
           | w :: l => String a w :: l
           | [] => [String a EmptyString]
           end
  end.
(** White space in the sense of str.strip, within ASCII. *)
Definition is_space (a : ascii) : bool :=
  let n := N_of_ascii a in
  (N.eqb n 32 || (N.leb 9 n && N.leb n 13) || (N.leb 28 n && N.leb n 31))%bool.
Fixpoint lstrip (s : string) : string :=
  match s with
  | String a r => if is_space a then lstrip r else s
  | EmptyString => EmptyString
  end.
Fixpoint rstrip (s : string) : string :=
  match s with
  | String a r => match rstrip r with
                  | EmptyString => if is_space a then EmptyString else String a EmptyString
                  | r' => String a r'
                  end
  | EmptyString => EmptyString
  end.
(** [n.strip() for n in factors.split('star')], line 887. *)
Definition parse (factors : string) : list string :=
  map (fun n => rstrip (lstrip n)) (split_on "*" factors).

(** * The schedule *)
Record params := mk_params {
  base : R; warmup : Z; decay : R; per_decay : Z; per_cycle : Z; offset : Z; min_lr : R }.

(** One factor, 893-919; None: ValueError.  steps_per_decay is positive: what jax
    makes of an integer division by zero is not specified. *)
Definition factor (p : params) (t : Z) (name : string) (ret : num) : option num :=
  let step := Fin (IZR t) in
  let w := Fin (IZR (warmup p)) in
  if name =? "constant" then Some (mul ret (Fin (base p)))
  else if name =? "linear_warmup" then Some (mul ret (nmin (Fin 1) (div step w)))
  else if name =? "linear_decay" then
    Some (mul ret (mul (Fin (base p))
                       (nmin (div step w) (Fin (1 + decay p * (IZR (warmup p) - IZR t))))))
  else if name =? "rsqrt_decay" then Some (div ret (nsqrt (nmax step w)))
  else if name =? "rsqrt_normalized_decay" then
    Some (div (mul ret (nsqrt w)) (nsqrt (nmax step w)))
  else if name =? "decay_every" then
    Some (mul ret (Fin (pow (decay p) (Z.to_nat (t / per_decay p)))))
  else if name =? "cosine_decay" then
    let progress := nmax (Fin 0) (div (Fin (IZR (t - warmup p))) (Fin (IZR (per_cycle p)))) in
    Some (mul ret (nmax (Fin 0) (mul (Fin (1 / 2)) (nadd1 (ncos (mul (Fin PI) (nfrac progress)))))))
  else None.

Fixpoint product (p : params) (t : Z) (names : list string) (ret : num) : option num :=
  match names with
  | [] => Some ret
  | n :: r => match factor p t n ret with Some ret' => product p t r ret' | None => None end
  end.

(** create_learning_rate_scheduler(factors, ...)(step), 887-923. *)
Definition schedule (factors : string) (p : params) (step : Z) : option num :=
  match product p (Z.max 0 (step - offset p)) (parse factors) (Fin 1) with
  | Some ret => Some (nmax ret (Fin (min_lr p)))
  | None => None
  end.
