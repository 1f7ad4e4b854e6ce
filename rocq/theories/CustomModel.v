(** Model of the flux read from a file of depth profiles
    (core/include/xolotl/core/flux/CustomFitFluxHandler.h:50-71 FitFunction, 94-291
    initializeFluxHandler, 296-327 computeIncidentFlux with a constant amplitude) and of
    core/src/flux/FluxHandler.cpp:134-146 syncIncidentFluxVec. The normalisation and the
    vectors are those of ImplantModel. The file is a sequence of characters; std::getline is
    modelled with the state of the stream, and the tokenizer is TokenModel's. parseSpeciesId,
    stoi, stod and findClusterId are parameters; [None]: they throw, or the cluster is not in the
    network (which throws, 150-157). The messages, the file incidentVectors.txt and the copies to
    the device are left out. *)
From Coq Require Import Reals List Lia Lra Ascii ZArith Bool Arith.
From Verif Require Import Sums ImplantModel TokenModel.
Import ListNotations.
Open Scope R_scope.

(** ** std::getline *)
(** What remains of the file, and whether the stream is still good. *)
Definition stream := (text * bool)%type.
(** Up to the next new line; the flag: a new line was found. *)
Fixpoint cut (s : text) : text * text * bool :=
  match s with
  | [] => ([], [], false)
  | ch :: s' => if ascii_dec ch nl then ([], s', true) else let '(l, r, b) := cut s' in (ch :: l, r, b)
  end.
(** std::getline(stream, line): when the stream is not good nothing is read and the string keeps
    its characters; reaching the end of the file without a new line sets eofbit. *)
Definition getl (line : text) (st : stream) : text * stream :=
  if snd st then let '(l, r, b) := cut (fst st) in (l, (r, b)) else (line, st).

Section FILE.
Variable species : text -> option nat.
Variable stoi : text -> option Z.
Variable stod : text -> option R.
Variable find : nat -> Z -> option nat.

(** One profile: the unknown, the reduction factor, the sixteen parameters and the depth of the fit. *)
Record entry := Entry { eid : nat; ered : R; eparams : list R; edepth : R }.
(** lines 136-161 *)
Definition header (a b e : text) : option (nat * R) :=
  match species a with
  | None => None
  | Some sp => match stoi b with
    | None => None
    | Some n => match find sp n with
      | None => None
      | Some id => match stod e with None => None | Some r => Some (id, r) end
      end
    end
  end.
Fixpoint numbers (l : list text) : option (list R) :=
  match l with
  | [] => Some []
  | x :: l' => match stod x, numbers l' with Some v, Some vs => Some (v :: vs) | _, _ => None end
  end.
(** lines 176-201 *)
Definition params (toks : list text) : option (list R * R) :=
  if (length toks =? 17)%nat then
    match numbers toks with Some vs => Some (firstn 16 vs, nth 16 vs 0 + 0.1) | None => None end
  else None.
(** lines 126-250: the loop over the lines; [None] : more iterations than [fuel]. *)
Fixpoint loop (fuel : nat) (line : text) (st : stream) (acc : list entry) : option (outcome (list entry)) :=
  match fuel with
  | O => None
  | S fuel' =>
      match tokens (t " ") line with
      | [] => Some (Done acc)
      | [a; b; e] =>
          match header a b e with
          | None => Some Thrown
          | Some (id, red) =>
              let (line2, st2) := getl line st in
              match params (tokens (t " ") line2) with
              | None => Some Thrown
              | Some (ps, d) => let (line3, st3) := getl line2 st2 in loop fuel' line3 st3 (acc ++ [Entry id red ps d])
              end
          end
      | _ => Some Thrown
      end
  end.
(** lines 117-126 *)
Definition readFile (f : text) : option (outcome (list entry)) :=
  let (line, st) := getl [] (f, true) in loop (S (length f)) line st [].
End FILE.

(** ** The source *)
(** lines 56-70: the sum of the sixteen terms, never negative, nothing beyond the depth of the fit. *)
Definition fitOf (e : entry) (x : R) : R :=
  if Rlt_dec (edepth e) x then 0
  else Rmax (Rsum (seq 0 16) (fun i => nth i (eparams e) 0 * x ^ i)) 0.
(** The vectors, lines 203-246: none without a grid. *)
Definition vectors (es : list entry) (amp : R) (sp : nat) (g : list R) : list (list R) :=
  match g with
  | [] => []
  | _ => map (fun e => initVec (fitOf e) amp (ered e) (norm (fitOf e) g sp) g sp) es
  end.
Record state := State { sentries : list entry; svecs : list (list R); sgrid : list R }.
(** FluxHandler.cpp:137-138 takes the size of the first vector, which must exist. *)
Definition sync (s : state) : outcome state := match svecs s with [] => Undefined | _ => Done s end.
(** lines 94-291: [file] is [None] when it cannot be opened. Everything which was stored before is cleared (99-105). *)
Definition initializeFile (species : text -> option nat) (stoi : text -> option Z) (stod : text -> option R)
    (find : nat -> Z -> option nat) (file : option text) (amp : R) (sp : nat) (g : list R) (before : state) : option (outcome state) :=
  match file with
  | None => Some (sync (State [] [] g))
  | Some f => match readFile species stoi stod find f with
      | None => None
      | Some o => Some (bind o (fun es => sync (State es (vectors es amp sp g) g)))
      end
  end.
(** lines 318-326: what is added to unknown [d] at point [xi]; a read outside of a vector is undefined. *)
Fixpoint added (es : list entry) (vs : list (list R)) (j d : nat) : outcome R :=
  match es, vs with
  | e :: es', v :: vs' => bind (at_ v j) (fun x => bind (added es' vs' j d) (fun y => Done (if (eid e =? d)%nat then x + y else y)))
  | _, _ => Done 0
  end.
Definition computeIncidentFlux (s : state) (sp xi d : nat) : outcome R := added (sentries s) (svecs s) (xi - sp) d.
