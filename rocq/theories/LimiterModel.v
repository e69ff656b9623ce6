(** Model of the byte-counting condition variable used while writing arrays.
    Source: /repo/t5x/checkpoints.py:424-441 and 873-931. *)
From Coq Require Import NArith List.
Import ListNotations.
Open Scope N_scope.

(** One coroutine: about to test the predicate, suspended in wait_for, writing
    with its bytes reserved, or finished. *)
Inductive writer := Testing (n : N) | Suspended (n : N) | Holding (n : N) | Finished (n : N).

(** [avail] is _num_bytes. *)
Record cv := mk_cv { avail : N; writers : list writer }.

(** notify_all: every suspended coroutine will test its predicate again. *)
Definition wake (w : writer) : writer := match w with Suspended n => Testing n | _ => w end.

(** checkpoints.py:432-441 under asyncio: the lock makes the test and the
    subtraction one step, and the addition and the notification one step; between
    steps any coroutine may run. *)
Inductive cv_step (max : N) : cv -> cv -> Prop :=
| st_admit : forall c a n b, writers c = a ++ Testing n :: b ->
    avail c > n -> (* _num_bytes > n_bytes *)
    cv_step max c (mk_cv (avail c - n) (a ++ Holding n :: b))
| st_suspend : forall c a n b, writers c = a ++ Testing n :: b ->
    ~ avail c > n ->
    cv_step max c (mk_cv (avail c) (a ++ Suspended n :: b))
| st_return : forall c a n b, writers c = a ++ Holding n :: b ->
    cv_step max c (mk_cv (avail c + n) (map wake a ++ Finished n :: map wake b)).

(** checkpoints.py:427-430: a new limiter, and coroutines asking for [reqs] bytes. *)
Definition cv_init (max : N) (reqs : list N) : cv := mk_cv max (map Testing reqs).

Inductive cv_reach (max : N) (reqs : list N) : cv -> Prop :=
| reach_init : cv_reach max reqs (cv_init max reqs)
| reach_step : forall c c', cv_reach max reqs c -> cv_step max c c' -> cv_reach max reqs c'.

(** checkpoints.py:890-902: the bytes an array asks for: its size, capped. *)
Definition request (concurrent_bytes n_bytes : N) : N :=
  if concurrent_bytes <? n_bytes then concurrent_bytes else n_bytes.

(** checkpoints.py:873: every array gets a limiter of its own; a save runs one
    such single-coroutine system per array, interleaved. *)
Inductive save_step (max : N) : list cv -> list cv -> Prop :=
| save_one : forall a c c' b, cv_step max c c' -> save_step max (a ++ c :: b) (a ++ c' :: b).

Definition save_init (max : N) (sizes : list N) : list cv :=
  map (fun n => cv_init max [request max n]) sizes.

Inductive save_reach (max : N) (sizes : list N) : list cv -> Prop :=
| sreach_init : save_reach max sizes (save_init max sizes)
| sreach_step : forall s s', save_reach max sizes s -> save_step max s s' -> save_reach max sizes s'.
