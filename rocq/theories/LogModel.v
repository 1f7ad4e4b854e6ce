(** Model of the messages of a run: Log.cpp:23-30, 49-76 (names of the levels), 91-151 (setupLogs), 153-178 (threshold, getLogger),
    Log.h:25-32, 94-103 (levels, macros), with the order in which the options set the level (JSONOptions.cpp:94-113,
    ConfOptions.cpp:35-45, 256). The levels are 0 debug, 1 extra, 2 info, 3 warning, 4 error. The filter of the core is the smallest level
    which passes; without one every message passes. The stamps of the file and the scope are left out. *)
From Coq Require Import List Arith Bool Ascii String.
Import ListNotations.
Set Implicit Arguments.

(** Log.cpp:23-30 in the C locale *)
Definition upper (c : ascii) : ascii := let n := nat_of_ascii c in if ((97 <=? n) && (n <=? 122))%nat%bool then ascii_of_nat (n - 32) else c.
Fixpoint toUpper (s : string) : string := match s with EmptyString => EmptyString | String c r => String (upper c) (toUpper r) end.
(** Log.cpp:49-50 *)
Definition levelStrings : list string := ["DEBUG"; "EXTRA"; "INFO"; "WARNING"; "ERROR"]%string.
Fixpoint find (l : list string) (s : string) : option nat :=
  match l with [] => None | x :: r => if string_dec x s then Some 0 else option_map S (find r s) end.
(** Log.cpp:65-76; [None]: an exception. *)
Definition logLevelFromString (s : string) : option nat := find levelStrings (toUpper s).

Section RUN.
Variable Text : Type.
(** Build without asserts (NDEBUG), the process, whether MPI is ready, the warning if it is not. *)
Variables (release : bool) (rank : nat) (mpiReady : bool) (noRank : Text).
Inductive event := Level (l : nat) | Message (l : nat) (t : Text).
Record state := St { filter_ : nat; threshold : nat; ready : bool; fileSink : bool; out : list Text; err : list Text; file : list Text }.
(** Log.cpp:153, and the core of Boost at the start *)
Definition start : state := St 0 2 false false [] [] [].
(** Log.cpp:106-114, 134-144: the record reaches the sinks whose filters it passes. *)
Definition record_ (l : nat) (t : Text) (s : state) : state :=
  if (filter_ s <=? l)%nat then
    St (filter_ s) (threshold s) (ready s) (fileSink s)
      (if ((2 <=? l) && (l <? 4))%nat%bool then out s ++ [t] else out s)
      (if (4 <=? l)%nat then err s ++ [t] else err s)
      (if fileSink s then file s ++ [t] else file s)
  else s.
(** Log.cpp:91-151 *)
Definition setupLogs (s : state) : state :=
  let filter' := if release then 1 else filter_ s in
  if (mpiReady && (1 <? threshold s) && (0 <? rank))%nat%bool
  then St filter' (threshold s) true false (out s) (err s) (file s)
  else let s' := St filter' (threshold s) true true (out s) (err s) (file s) in
       if mpiReady then s' else record_ 3 noRank s'.
(** Log.cpp:160-165; Log.h:94-96 with Log.cpp:173-178 *)
Definition step (s : state) (e : event) : state :=
  match e with
  | Level l => St l l (ready s) (fileSink s) (out s) (err s) (file s)
  | Message l t => record_ l t (if ready s then s else setupLogs s)
  end.
Definition run (es : list event) : state := fold_left step es start.
(** JSONOptions.cpp:94-113: the level is set before any message. *)
Definition json (l : nat) (ms : list (nat * Text)) : list event := Level l :: map (fun m => Message (fst m) (snd m)) ms.
(** ConfOptions.cpp:42-45, 256: behind the warning [w] that the format is deprecated. *)
Definition conf (w : Text) (l : nat) (ms : list (nat * Text)) : list event := Message 3 w :: Level l :: map (fun m => Message (fst m) (snd m)) ms.
End RUN.
