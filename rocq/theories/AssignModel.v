(** Model of apply_assignment_map. Source: /repo/t5x/state_utils.py:128-238. *)
From Coq Require Import String Ascii Bool List Arith.
From Verif Require Import Str PyDict StateModel.
Import ListNotations.

Section Assign.
  (** Python's regular expressions: re.fullmatch(pattern, key) gives a match
      object or None, and match.expand(replacement) gives a string. They are
      arbitrary functions here. *)
  Variables (M : Type) (fullmatch : str -> str -> option M) (expand : M -> str -> str).
  Variable A : Type.

  Notation flat := (list (str * A)).

  (** (pattern, replacement); None means drop. *)
  Definition rule := (str * option str)%type.

  (** The variables of the loop, state_utils.py:168-174. *)
  Record loop := mk_loop { unmapped : flat; result : flat; skipped : list str; used : list str }.

  (** set.add *)
  Definition sadd (s : list str) (x : str) : list str := if existsb (str_eqb x) s then s else x :: s.

  (** state_utils.py:176-211, for one key. None is the ValueError for a missing
      parameter. *)
  Fixpoint try_rules (ckpt : flat) (rules : list rule) (k : str) (l : loop) : option loop :=
    match rules with
    | [] => Some l
    | (pattern, repl) :: r =>
        match fullmatch pattern k with
        | None => try_rules ckpt r k l
        | Some m =>
            match repl with
            | None => Some (mk_loop (unmapped l) (result l) (sadd (skipped l) k) (sadd (used l) pattern))
            | Some rep =>
                let old_k := expand m rep in
                match pget str_eqb ckpt old_k with
                | Some v => Some (mk_loop (pdel str_eqb (unmapped l) old_k) (pset str_eqb (result l) k v)
                                          (skipped l) (sadd (used l) pattern))
                | None => None
                end
            end
        end
    end.

  Fixpoint run_keys (ckpt : flat) (rules : list rule) (ks : list str) (l : loop) : option loop :=
    match ks with
    | [] => Some l
    | k :: r => match try_rules ckpt rules k l with Some l' => run_keys ckpt rules r l' | None => None end
    end.

  Definition smem (x : str) (s : list str) : bool := existsb (str_eqb x) s.

  (** state_utils.py:213-217: re-adding the unmapped keys. *)
  Definition readd (l : loop) : flat :=
    fold_left (fun res kv => if smem (fst kv) (skipped l) then res else pset str_eqb res (fst kv) (snd kv))
      (unmapped l) (result l).

  (** state_utils.py:219-229. The keys of a set difference come in no particular
      order in Python; here in the order of [opt]. *)
  Definition copy_rest (ckpt : flat) (ks skip : list str) (res : flat) : flat :=
    fold_left (fun acc k =>
      if smem k skip then acc
      else match pget str_eqb ckpt k with Some v => pset str_eqb acc k v | None => acc end)
      (filter (fun k => negb (pin str_eqb res k)) ks) res.

  Inductive outcome := Missing | Unused | Done (r : flat).

  (** state_utils.py:162-236 between flattening and unflattening; [opt] is the list
      of keys of the flattened optimizer state. *)
  Definition assign (ckpt : flat) (opt : list str) (rules : list rule) (require_all : bool) : outcome :=
    match run_keys ckpt rules opt (mk_loop ckpt [] [] []) with
    | None => Missing
    | Some l =>
        let res := copy_rest ckpt opt (skipped l) (readd l) in
        if require_all && negb (length rules =? length (used l)) then Unused else Done res
    end.
End Assign.
Arguments Missing {A}. Arguments Unused {A}. Arguments Done {A} r.

(** state_utils.py:128-238 (apply_assignment_map) on nested states; None is any
    raised error. *)
Definition apply_assignment_map {M A} (fullmatch : str -> str -> option M) (expand : M -> str -> str)
    (ckpt opt : tree A) (rules : list rule) (require_all is_resuming : bool) : option (tree A) :=
  if is_resuming then Some ckpt else
  match assign M fullmatch expand (tree A) (flatten_state_dict A false ckpt)
          (keys (flatten_state_dict A false opt)) rules require_all with
  | Done res => unflatten A res
  | _ => None
  end.
