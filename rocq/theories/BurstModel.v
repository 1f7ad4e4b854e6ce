(** Model of PSIReactionNetwork::updateBurstingConcs
    (PSIReactionNetwork.tpp:161-281). *)
From Coq Require Export Reals List ZArith Lia Lra Bool.
Export ListNotations.
Set Implicit Arguments.
Open Scope R_scope.

(** The region of a cluster, each axis [begin, end): the gases (He, and D, T when
    the network has them), then V, then I; and its valid moment ids. *)
Record cl := Cl { gasR : list (Z * Z); vacR : Z * Z; intR : Z * Z; moms : list nat }.
Definition axes (c : cl) : list (Z * Z) := gasR c ++ [vacR c; intR c].
Definition len (r : Z * Z) : Z := (snd r - fst r)%Z.
Definition volume (c : cl) : Z := fold_right (fun r v => (len r * v)%Z) 1%Z (axes c).
Definition isSimplex (c : cl) : bool := forallb (fun r => (len r =? 1)%Z) (axes c).
(** Composition::isOnAxis of the origin. *)
Fixpoint onAxis (k : nat) (o : list Z) : bool :=
  match o with
  | [] => false
  | x :: o' => match k with
               | O => negb (x =? 0)%Z && forallb (fun y => (y =? 0)%Z) o'
               | S k' => (x =? 0)%Z && onAxis k' o'
               end
  end.
Definition origin (c : cl) : list Z := map fst (axes c).

Definition upd (f : nat -> R) (k : nat) (x : R) : nat -> R := fun j => if Nat.eqb j k then x else f j.
(** for (auto j : makeIntervalRange(r)) *)
Definition inter (r : Z * Z) : list Z := map (fun n => (fst r + Z.of_nat n)%Z) (seq 0 (Z.to_nat (len r))).

Section BURST.
Variable factor : R.
(** findCluster of the pure vacancy composition; [None]: invalid id, whose use is
    undefined behaviour. *)
Variable findV : Z -> option nat.
Variable clusters : list cl.
Definition dummy : cl := Cl [] (0, 1)%Z (0, 1)%Z [].

Record st := St { sol : nat -> R; burst : nat -> R }.

(** lines 207-217, 234-253: release every gas. *)
Definition releaseSimple (c : cl) (i : nat) (s : st) : st :=
  St (sol s) (fold_left (fun b g => upd b g (b g + sol s i * IZR (nth g (origin c) 0%Z) * factor))
                        (seq 0 (length (gasR c))) (burst s)).
Definition releaseGroup (c : cl) (i : nat) (s : st) : st :=
  St (sol s) (fold_left (fun b g =>
                let concFactor := IZR (volume c) / IZR (len (nth g (gasR c) (0, 1)%Z)) in
                fold_left (fun b' j => upd b' g (b' g + sol s i * IZR j * concFactor * factor)) (inter (nth g (gasR c) (0, 1)%Z)) b)
              (seq 0 (length (gasR c))) (burst s)).

(** lines 218-226, 255-269: transfer; [amount] is recomputed from the solution each time. *)
Definition transfer (i : nat) (scale : R) (v : Z) (f : nat -> R) : option (nat -> R) :=
  match findV v with
  | None => None
  | Some k => Some (upd f k (f k + f i * scale / IZR (len (vacR (nth k clusters dummy)))))
  end.
Fixpoint transferAll (i : nat) (scale : R) (vs : list Z) (f : nat -> R) : option (nat -> R) :=
  match vs with
  | [] => Some f
  | v :: vs' => match transfer i scale v f with None => None | Some f' => transferAll i scale vs' f' end
  end.
Definition clear (i : nat) (f : nat -> R) : nat -> R := upd f i 0.

Definition burstStep (i : nat) (c : cl) (s : st) : option st :=
  let ng := length (gasR c) in
  if isSimplex c then
    (* lines 176-204: pure He, D or T *)
    match find (fun g => onAxis g (origin c)) (seq 0 ng) with
    | Some g => Some (St (clear i (sol s)) (upd (burst s) g (burst s g + sol s i * IZR (nth g (origin c) 0%Z) * factor)))
    | None =>
        if onAxis ng (origin c) || onAxis (S ng) (origin c) then Some s
        else
          let s1 := releaseSimple c i s in
          match transfer i 1 (fst (vacR c)) (sol s1) with
          | None => None
          | Some f => Some (St (clear i f) (burst s1))
          end
    end
  else
    let s1 := releaseGroup c i s in
    match transferAll i (IZR (volume c) / IZR (len (vacR c))) (inter (vacR c)) (sol s1) with
    | None => None
    | Some f => Some (St (fold_left (fun h m => clear m h) (moms c) (clear i f)) (burst s1))
    end.
Fixpoint burstLoop (i : nat) (cs : list cl) (s : st) : option st :=
  match cs with
  | [] => Some s
  | c :: cs' => match burstStep i c s with None => None | Some s' => burstLoop (S i) cs' s' end
  end.
Definition updateBurstingConcs (s : st) : option st := burstLoop 0 clusters s.
End BURST.
