(** Model of any number of processes working in one database directory at the same time. *)
From Coq Require Import List.
From Verif Require Import Base DbModel DbConcurrent.
Import ListNotations.

(** As [world] of DbConcurrent.v, with any number of processes of two kinds. Each has what it still has to do and its
    own open files. *)
Record crowd (A B : Type) : Type := Crowd {
  c_writers : list (prog A * list handle); c_readers : list (prog B * list handle); c_shared : fsys }.
Arguments Crowd {A B}.
Arguments c_writers {A B}.
Arguments c_readers {A B}.
Arguments c_shared {A B}.

(** Some steps of some of them, in any order. A process that makes no further steps may have been stopped. *)
Inductive crowd_later {A B} : crowd A B -> crowd A B -> Prop :=
| crowd_now w : crowd_later w w
| crowd_writer pre f h post rs s s' p' w :
    f (with_handles s h) = (s', p') -> crowd_later (Crowd (pre ++ (p', f_handles s') :: post) rs s') w ->
    crowd_later (Crowd (pre ++ (Step f, h) :: post) rs s) w
| crowd_reader ws pre f h post s s' q' w :
    f (with_handles s h) = (s', q') -> crowd_later (Crowd ws (pre ++ (q', f_handles s') :: post) s') w ->
    crowd_later (Crowd ws (pre ++ (Step f, h) :: post) s) w.
