(** Model of the concurrent construction of the connectivity and of the
    reaction storage: detail/ClusterConnectivity.h:42-94 and
    detail/impl/ReactionGenerator.tpp:28-280.

    Kokkos runs the loops in parallel. The shared arrays are only touched by the
    atomic actions written below, one per step; an arbitrary list of thread
    numbers is a schedule. [None] in a cell is [invalidIndex]; the result [None]
    of a step is an access outside the array. *)
From Coq Require Export List Arith Lia Permutation Bool.
Export ListNotations.
Set Implicit Arguments.

(** What a reaction announces: ClusterConnectivity.h:46-48, [add] does nothing
    when one of the two is invalid. *)
Definition declared := list (option nat * option nat).
Definition op : Type := nat * nat.
Definition validOps (l : declared) : list op :=
  flat_map (fun '(a, b) => match a, b with Some r, Some c => [(r, c)] | _, _ => [] end) l.

(** ReactionGenerator.tpp:185-187 and 217-230: each unknown is connected with
    itself. Each iteration of a parallel loop is one thread. *)
Definition allThreads (ndof : nat) (rs : list declared) : list (list op) :=
  map (fun i => [(i, i)]) (seq 0 ndof) ++ map validOps rs.

(** First pass, ClusterConnectivity.h:50: [atomic_increment(&row_map(rowId))]
    (the diagonal initialises the counter to 1). [order] is the order in which
    the increments happen. *)
Definition incr (f : nat -> nat) (r : nat) : nat -> nat := fun i => if i =? r then S (f i) else f i.
Definition countPass A (order : list (nat * A)) : nat -> nat :=
  fold_left (fun f o => incr f (fst o)) order (fun _ => 0).

(** Kokkos::get_crs_row_map_from_counts: exclusive prefix sum. *)
Fixpoint scan (cnt : nat -> nat) (r : nat) : nat :=
  match r with O => 0 | S r' => scan cnt r' + cnt r' end.

(** Second pass, ClusterConnectivity.h:53-60 (and ReactionGenerator.tpp:222-229):
    [Try id]: compare-exchange of entries(id); [Chk id]: the test
    [entries(id) == columnId] after a failed exchange. *)
Inductive pc := Try (id : nat) | Chk (id : nat).
Record thread := Th { todo : list op; here : pc }.
Definition mem : Type := nat -> option nat.
Definition upd A (m : nat -> A) (i : nat) (v : A) : nat -> A := fun j => if j =? i then v else m j.

Definition load (rm : nat -> nat) (l : list op) : thread :=
  match l with [] => Th [] (Try 0) | (r, _) :: _ => Th l (Try (rm r)) end.

Definition tstep (N : nat) (rm : nat -> nat) (m : mem) (t : thread) : option (mem * thread) :=
  match todo t with
  | [] => Some (m, t)
  | (r, c) :: rest =>
      match here t with
      | Try id =>
          if id <? N then
            match m id with
            | None => Some (upd m id (Some c), load rm rest)
            | Some _ => Some (m, Th (todo t) (Chk id))
            end
          else None
      | Chk id =>
          if id <? N then
            match m id with
            | Some c' => if c' =? c then Some (m, load rm rest) else Some (m, Th (todo t) (Try (S id)))
            | None => Some (m, Th (todo t) (Try (S id)))
            end
          else None
      end
  end.

Fixpoint setnth A (l : list A) (i : nat) (x : A) : list A :=
  match l, i with
  | [], _ => []
  | _ :: l', O => x :: l'
  | a :: l', S i' => a :: setnth l' i' x
  end.

Definition state : Type := mem * list thread.
Definition step (N : nat) (rm : nat -> nat) (s : state) (i : nat) : option state :=
  match nth_error (snd s) i with
  | None => Some s
  | Some t => match tstep N rm (fst s) t with
              | None => None
              | Some (m', t') => Some (m', setnth (snd s) i t')
              end
  end.
Fixpoint run (N : nat) (rm : nat -> nat) (s : state) (sched : list nat) : option state :=
  match sched with
  | [] => Some s
  | i :: l => match step N rm s i with None => None | Some s' => run N rm s' l end
  end.
Definition init (rm : nat -> nat) (ths : list (list op)) : state := (fun _ => None, map (load rm) ths).
Definition finished (s : state) : Prop := forall t, In t (snd s) -> todo t = [].

(** Shrink to fit, ReactionGenerator.tpp:247-275: the entries of row i up to the
    first invalid one. *)
Fixpoint cut (l : list (option nat)) : list nat :=
  match l with Some c :: l' => c :: cut l' | _ => [] end.
Definition rowOf (rm : nat -> nat) (m : mem) (r : nat) : list nat :=
  cut (map m (seq (rm r) (rm (S r) - rm r))).
(** The final compressed rows: row_map and entries of [connectivity]. *)
Definition rows (ndof : nat) (rm : nat -> nat) (m : mem) : list (list nat) := map (rowOf rm m) (seq 0 ndof).
Definition crsMap (rs : list (list nat)) (r : nat) : nat := scan (fun i => length (nth i rs [])) r.
Definition crsEntries (rs : list (list nat)) : list nat := concat rs.

(** ClusterConnectivity.h:83-94 getPosition. *)
Fixpoint findFrom (e : nat -> nat) (c pos fuel : nat) : option nat :=
  match fuel with
  | O => None
  | S f => if e pos =? c then Some pos else findFrom e c (S pos) f
  end.
Definition getPosition (rs : list (list nat)) (r c : nat) : option nat :=
  findFrom (fun p => nth p (crsEntries rs) 0) c (crsMap rs r) (crsMap rs (S r) - crsMap rs r).

(** ** Reaction storage: ReactionGenerator.tpp:111-167. The row is cluster0 for
    productions (111-138) and cluster1 for dissociations (140-167); the first pass
    counts, the second claims a cell by compare-exchange of that field and then
    copies the cluster set.
    A cell: [None] = invalid key, [Some None] = key claimed, [Some (Some p)] = the
    whole cluster set was copied. *)
Notation sop P := (nat * P)%type.
Section STORE.
Variable P : Type.
Inductive spc := STry (id : nat) | SWrite (id : nat).
Record sthread := STh { stodo : list (sop P); shere : spc }.
Definition smem : Type := nat -> option (option P).
Definition sload (rm : nat -> nat) (l : list (sop P)) : sthread :=
  match l with [] => STh [] (STry 0) | (r, _) :: _ => STh l (STry (rm r)) end.
Definition ststep (N : nat) (rm : nat -> nat) (m : smem) (t : sthread) : option (smem * sthread) :=
  match stodo t with
  | [] => Some (m, t)
  | (r, p) :: rest =>
      match shere t with
      | STry id => if id <? N then
            match m id with
            | None => Some (upd m id (Some None), STh (stodo t) (SWrite id))
            | Some _ => Some (m, STh (stodo t) (STry (S id)))
            end else None
      | SWrite id => if id <? N then Some (upd m id (Some (Some p)), sload rm rest) else None
      end
  end.
Definition sstate : Type := smem * list sthread.
Definition sstep (N : nat) (rm : nat -> nat) (s : sstate) (i : nat) : option sstate :=
  match nth_error (snd s) i with
  | None => Some s
  | Some t => match ststep N rm (fst s) t with
              | None => None
              | Some (m', t') => Some (m', setnth (snd s) i t')
              end
  end.
Fixpoint srun (N : nat) (rm : nat -> nat) (s : sstate) (sched : list nat) : option sstate :=
  match sched with
  | [] => Some s
  | i :: l => match sstep N rm s i with None => None | Some s' => srun N rm s' l end
  end.
Definition sinit (rm : nat -> nat) (ths : list (list (sop P))) : sstate := (fun _ => None, map (sload rm) ths).
Definition sfinished (s : sstate) : Prop := forall t, In t (snd s) -> stodo t = [].
End STORE.
