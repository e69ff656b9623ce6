(** What a restored checkpoint should contain, leaf by leaf. *)
From Coq Require Import List Bool Arith.
From Verif Require Import LazyModel.
Import ListNotations.

Section Spec.
Variable A : arrays.

(** A chain of conversions applied to an array that has been read. *)
Definition eager (ds : list (dtype A)) (a : arr A) : arr A := fold_left (fun a d => acast A d a) ds a.

(** The same chain applied to a lazy array. *)
Definition astypes (ds : list (dtype A)) (l : lazy A) : lazy A := fold_left (fun l d => astype d l) ds l.

(** Converting twice is converting once. *)
Definition casts_compose : Prop := forall d e a, acast A e (acast A d a) = acast A e a.

(** A spec that can be read by someone expecting the given shape. *)
Definition readable (i : info) (s : spec A) : Prop :=
  (forall sh, i = Some sh -> s_shape s = sh) /\ s_dtype s <> Some (uint16 A) /\ s_u2 s = false.

(** The value of a leaf restored as [rd]: an array of the msgpack file
    converted by numpy, or the data of a spec converted by TensorStore. *)
Inductive leaf_value : option (dtype A) -> info -> value A -> arr A -> Prop :=
| lv_arr i a : leaf_value None i (VArr a) a
| lv_arr_cast d i a : leaf_value (Some d) i (VArr a) (acast A d a)
| lv_spec i s a e : readable i s -> s_dtype s = Some e -> s_data s = Some a -> leaf_value None i (VSpec s) a
| lv_spec_cast d i s a : readable i s -> s_data s = Some a -> leaf_value (Some d) i (VSpec s) (tcast A d a).

(** Leaf by leaf; where no info is given, nothing is restored. *)
Inductive leaves_are (rd : option (dtype A)) : list (option info) -> list (value A) -> list (leaf A) -> Prop :=
| la_nil : leaves_are rd [] [] []
| la_skip is v vs xs : leaves_are rd is vs xs -> leaves_are rd (None :: is) (v :: vs) (Skipped :: xs)
| la_cons i is v vs a xs : leaf_value rd i v a -> leaves_are rd is vs xs ->
    leaves_are rd (Some i :: is) (v :: vs) (LArr a :: xs).

(** The leaves restored under each key, with the dtype each key is given. *)
Inductive state_is (want : nat -> option (dtype A)) (infos_of : nat -> list (value A) -> option (list (option info)))
  : state (value A) -> state (leaf A) -> Prop :=
| si_nil : state_is want infos_of [] []
| si_cons k vs w is xs s : infos_of k vs = Some is -> leaves_are (want k) is vs xs ->
    state_is want infos_of w s -> state_is want infos_of ((k, vs) :: w) ((k, xs) :: s).

(** TensorStore gives arrays of the dtype and the shape of the spec. *)
Definition honest (v : value A) : Prop :=
  forall s, v = VSpec s -> forall a, s_data s = Some a ->
    ashape A a = s_shape s /\ (forall d, s_dtype s = Some d -> adtype A a = d).

Definition honest_state (w : state (value A)) : Prop :=
  forall k vs v, In (k, vs) w -> In v vs -> honest v.
End Spec.

Arguments eager {A}.
Arguments astypes {A}.
Arguments readable {A}.
Arguments leaf_value {A}.
Arguments leaves_are {A}.
Arguments state_is {A}.
Arguments honest {A}.
Arguments honest_state {A}.
