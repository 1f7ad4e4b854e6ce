(** The reaction file of the NE network (NEReactionNetwork.tpp:16-328). A line of the file is what the tokenizer makes of it
    (TokenModel has the tokenizer itself): a list of numbers, or the line "Reactions", which read as numbers is a single
    zero. Behind the end of the file all lines are empty. [None] is undefined behaviour: a token, a cluster or an entry of the
    map which does not exist, a negative double converted to unsigned, a division by zero. *)
From Coq Require Import ZArith Reals List Bool.
From Verif Require Import Sums EnergyModel.
Import ListNotations.
Set Implicit Arguments.
Open Scope R_scope.

Definition line := list R.
Inductive fline := Marker | Toks (l : line).
Definition tokens (f : fline) : line := match f with Marker => [0] | Toks l => l end.

(** readClusters, lines 26-45: [cur] has been read. *)
Fixpoint countLoop (cur : line) (rest : list fline) : nat :=
  match cur with
  | [] => 0%nat
  | _ => S (match rest with [] => 0%nat | Marker :: _ => 0%nat | Toks l :: r => countLoop l r end)
  end.
Definition readClusters (f : list fline) : nat := match f with [] => 0%nat | x :: r => countLoop (tokens x) r end.
(** readReactions, lines 83-143: the lines of the clusters, and what follows. *)
Fixpoint clusterLoop (cur : line) (rest : list fline) : list line * list fline :=
  match cur with
  | [] => ([], rest)
  | _ => match rest with
         | [] => ([cur], [])
         | Marker :: r => ([cur], r)
         | Toks l :: r => let (ls, q) := clusterLoop l r in (cur :: ls, q)
         end
  end.
(** lines 145-151, 272-275 *)
Fixpoint reactionLoop (rest : list fline) : list line :=
  match rest with [] => [] | f :: r => match tokens f with [] => [] | l => l :: reactionLoop r end end.
Definition sections (f : list fline) : list line * list line :=
  match f with [] => ([], []) | x :: r => let (ls, q) := clusterLoop (tokens x) r in (ls, reactionLoop q) end.

Section READ.
Variable T : R.                                   (* the temperature parameter *)
Variable cluster : Z * Z * Z -> option nat.       (* findCluster(Xe, V, I) *)
Let kT := kB * T.
(** static_cast of a double to an unsigned integer *)
Definition unsigned (x : R) : option Z := if Rle_dec 0 x then Some (Int_part x) else None.
Definition compAt (l : line) (i : nat) : option (Z * Z * Z) :=
  match nth_error l i, nth_error l (i + 1), nth_error l (i + 2) with
  | Some x, Some v, Some j => match unsigned x, unsigned v, unsigned j with Some x, Some v, Some j => Some (x, v, j) | _, _, _ => None end
  | _, _, _ => None
  end.
(** lines 103-129: the linked states of a cluster, (diffusivity, free energy), the first four numbers being the cluster itself *)
Fixpoint states (l : line) : option (list (R * R)) :=
  match l with
  | [] => Some []
  | h :: s :: d :: q :: l' => match states l' with Some ss => Some ((d * exp (- q / kT), h - kT * s) :: ss) | None => None end
  | _ => None
  end.
(** lines 107, 112, 124-129: g0Vector and smallestG0Id *)
Fixpoint smallest (k : nat) (g : R) (id : nat) (ss : list (R * R)) : R * nat :=
  match ss with
  | [] => (g, id)
  | (_, g') :: r => if Rlt_dec g' g then smallest (S k) g' k r else smallest (S k) g id r
  end.
Record entry := Entry { eStates : list (R * R); eG : R; eBest : nat }.
Definition entryOf (l : line) : option entry :=
  match states (skipn 3 l) with
  | Some ((d, g) :: ss) => let (g0, b) := smallest 1 g 0 ss in Some (Entry ((d, g) :: ss) g0 b)
  | _ => None
  end.
(** lines 136-138, 231, 177-180 *)
Definition weight (e : entry) (s : R * R) : R := exp ((eG e - snd s) / kT).
Definition diffusivity (e : entry) : R := Rsum (eStates e) (fun s => fst s * weight e s).
(** lines 93-100, 130-143. The map keeps the first entry of a key; the diffusion factor of a cluster is overwritten. *)
Record clusters := Clusters { cEntries : list entry; cMap : list (nat * nat); cFactor : nat -> option R }.
Definition assoc (m : list (nat * nat)) (k : nat) : option nat :=
  match find (fun p => (fst p =? k)%nat) m with Some p => Some (snd p) | None => None end.
Definition addCluster (l : line) (s : clusters) : option clusters :=
  match compAt l 0 with
  | None => None
  | Some c =>
      match cluster c, entryOf l with
      | Some id, Some e =>
          let m := match assoc (cMap s) id with Some _ => cMap s | None => cMap s ++ [(id, length (cEntries s))] end in
          Some (Clusters (cEntries s ++ [e]) m (fun i => if (i =? id)%nat then Some (diffusivity e) else cFactor s i))
      | _, _ => None
      end
  end.
Fixpoint addClusters (ls : list line) (s : clusters) : option clusters :=
  match ls with [] => Some s | l :: r => match addCluster l s with Some s' => addClusters r s' | None => None end end.
Definition noCluster := Clusters [] [] (fun _ => None).

(** constantRates(., ., 0), constantRates(., ., 1) and reactionEnergies, 0 at first; the column behind the last cluster is for sinks. *)
Record tables := Tables { k0 : nat -> nat -> R; k1 : nat -> nat -> R; dG : nat -> nat -> R }.
Definition zeros := Tables (fun _ _ => 0) (fun _ _ => 0) (fun _ _ => 0).
Definition set2 (f : nat -> nat -> R) (i j : nat) (x : R) : nat -> nat -> R :=
  fun i' j' => if ((i' =? i) && (j' =? j))%nat then x else f i' j'.
Definition setBoth f i j x := set2 (set2 f i j x) j i x.
(** static_cast<int>(x) == 0 *)
Definition truncatedZero (x : R) : bool := if Rlt_dec (Rabs x) 1 then true else false.
Section REACTIONS.
Variable s : clusters.
Definition mapped (c : Z * Z * Z) : option nat := match cluster c with Some id => assoc (cMap s) id | None => None end.
Definition entryAt (m : nat) : option entry := nth_error (cEntries s) m.
(** lines 168-188 *)
Definition sinkLine (l : line) (m : nat) (t : tables) : option tables :=
  match nth_error l 3, entryAt m with
  | Some coef, Some e =>
      match nth_error (eStates e) (eBest e) with
      | Some best =>
          let n := length (cEntries s) in
          Some (Tables (set2 (k0 t) m n (coef * diffusivity e)) (set2 (k1 t) m n (coef * fst best)) (set2 (dG t) m n (- eG e)))
      | None => None
      end
  | _, _ => None
  end.
(** lines 219-240 *)
Definition forward (a b : entry) : R :=
  Rsum (eStates a) (fun x => Rsum (eStates b) (fun y => (fst x + fst y) * weight a x * weight b y)).
(** lines 248-263 *)
Definition backward (a b p : entry) : R :=
  Rsum (eStates a) (fun x => Rsum (eStates b) (fun y => Rsum (eStates p) (fun z => (fst x + fst y) * weight p z))).
(** lines 190-270 *)
Definition pairLine (l : line) (m : nat) (t : tables) : option tables :=
  match compAt l 3, compAt l 6, nth_error l 9 with
  | Some c2, Some c3, Some flag =>
      match mapped c2 with
      | None => None
      | Some m' =>
          if truncatedZero flag then Some (Tables (setBoth (k0 t) m m' 0) (setBoth (k1 t) m m' 0) (setBoth (dG t) m m' 0))
          else
            match entryAt m, entryAt m' with
            | Some a, Some b =>
                let K0 := setBoth (k0 t) m m' (forward a b) in
                let E := - eG a - eG b in
                match cluster c3 with
                | None => Some (Tables K0 (k1 t) (setBoth (dG t) m m' E))
                | Some id =>
                    match assoc (cMap s) id with
                    | None => None
                    | Some mp => match entryAt mp with
                                 | None => None
                                 | Some p => Some (Tables K0 (setBoth (k1 t) m m' (backward a b p)) (setBoth (dG t) m m' (E + eG p)))
                                 end
                    end
                end
            | _, _ => None
            end
      end
  | _, _, _ => None
  end.
(** lines 153-166 *)
Definition reaction (l : line) (t : tables) : option tables :=
  match compAt l 0 with
  | None => None
  | Some c => match mapped c with
              | None => None
              | Some m => if (length l =? 4)%nat then sinkLine l m t else pairLine l m t
              end
  end.
Fixpoint reactions (ls : list line) (t : tables) : option tables :=
  match ls with [] => Some t | l :: r => match reaction l t with Some t' => reactions r t' | None => None end end.
(** lines 277-304 *)
Definition formation (c : Z * Z * Z) : option R :=
  match mapped c with Some m => match entryAt m with Some e => Some (eG e) | None => None end | None => None end.
End REACTIONS.
Record result := Result { rClusters : clusters; rTables : tables; rI : R; rV : R; rV2 : R; rXe : R }.
Definition readLines (cs rs : list line) : option result :=
  match addClusters cs noCluster with
  | None => None
  | Some s =>
      match reactions s rs zeros, formation s (0, 0, 1)%Z, formation s (0, 1, 0)%Z, formation s (0, 2, 0)%Z, formation s (1, 0, 0)%Z with
      | Some t, Some i, Some v, Some v2, Some x => Some (Result s t i v v2 x)
      | _, _, _, _, _ => None
      end
  end.
(** At temperature 0 the weights are 0 / 0. *)
Definition readReactions (f : list fline) : option result :=
  if Req_EM_T T 0 then None else let (cs, rs) := sections f in readLines cs rs.
End READ.

(** ReactionNetwork.tpp:66-78 with initializeExtraClusterData (lines 318-328): the tables have the size counted by readClusters, which is not
    initialised when the file cannot be read ([None]); without a path there is no file and no table ([Some None]). *)
Definition setup (T : R) (cluster : Z * Z * Z -> option nat) (path : bool) (file : option (list fline)) : option (option result) :=
  if path then match file with
               | Some f => match readReactions T cluster f with Some x => Some (Some x) | None => None end
               | None => None
               end
  else Some None.
