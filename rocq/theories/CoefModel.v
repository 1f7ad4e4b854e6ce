(** Model of ProductionReaction::computeCoefficients and
    DissociationReaction::computeCoefficients (core/network/impl/Reaction.tpp).
    The coefficient array is a store, zero-initialised (Kokkos::View), and the
    function body is the list of its assignments in program order; every
    right-hand side reads the store as it is at that moment. *)
From Verif Require Export RegionModel Assign.

(** Index (a, b, slot, k) of [_coefs(a, b, slot, k)]. *)
Inductive cidx := Co (a b s k : nat).
Definition cidx_dec (x y : cidx) : {x = y} + {x <> y}.
Proof. decide equality; apply Nat.eq_dec. Defined.

Notation cstore := (store cidx).
Notation casg := (asg cidx).

(** Geometry of a production reaction, after reflection: number of species axes
    without I (speciesRangeNoI), reflected regions of reactants and products,
    reflected dispersions, which products exist, and whether both product ids
    are equal. *)
Record preact := PR {
  na : nat;
  cl1 : nat -> ival;  (* cl1RR *)
  cl2 : nat -> ival;  (* cl2RR *)
  q1 : nat -> ival;  (* pr1RR *)
  q2 : nat -> ival;  (* pr2RR *)
  disp1 : nat -> R;     (* cl1Disp *)
  disp2 : nat -> R;     (* cl2Disp *)
  pdisp1 : nat -> R;     (* dispersion of the first product *)
  pdisp2 : nat -> R;     (* dispersion of the second product *)
  v1 : bool;         (* _products[0] != invalidIndex *)
  v2 : bool;         (* _products[1] != invalidIndex *)
  same : bool        (* _products[1] == _products[0] *)
}.

Section PROD.
Variable r : preact.

Definition axes : list nat := seq 0 (na r).

(** Reaction.tpp:211-220: [_widths] and [nOverlap]. *)
Definition noProduct : bool := negb (v1 r) && negb (v2 r).
Definition width (i : nat) : R :=
  if noProduct then 1 else overlapWidth (cl1 r i) (cl2 r i) (q1 r i) (q2 r i).
Definition nOverlap : R :=
  if noProduct then 1 else Rprod axes width.
Definition factor (i : nat) : R := nOverlap / width i.

(** Reaction.tpp:247-254 and 365-372: [thisRR], [otherRR], [thisDispersion] for
    p in {0, 1}. *)
Definition usesFirst (p : nat) : bool :=
  match p with O => true | _ => same r end.
Definition thisRR (p i : nat) : ival := if usesFirst p then q1 r i else q2 r i.
Definition otherRR (p i : nat) : ival := if usesFirst p then q2 r i else q1 r i.
Definition thisDisp (p i : nat) : R := if usesFirst p then pdisp1 r i else pdisp2 r i.
Definition validProd (p : nat) : bool := match p with O => v1 r | _ => v2 r end.

(** Reaction.tpp:263-286, the loop body over k for product p. *)
Definition loop1k (i p k : nat) : list casg :=
  if k =? i then
    [ (Co (S i) 0 (p + 2) (S k), fun _ : cstore =>
         factor i * computeSecondOrderOffsetSum (cl1 r i) (cl2 r i) (thisRR p i) (otherRR p i)
         / thisDisp p i);
      (Co 0 (S i) (p + 2) (S k), fun _ : cstore =>
         factor i * computeSecondOrderOffsetSum (cl2 r i) (cl1 r i) (thisRR p i) (otherRR p i)
         / thisDisp p i) ]
  else
    [ (Co (S i) 0 (p + 2) (S k), fun st : cstore =>
         st (Co (S i) 0 0 0) * st (Co 0 0 (p + 2) (S k)) / nOverlap);
      (Co 0 (S i) (p + 2) (S k), fun st : cstore =>
         st (Co 0 (S i) 0 0) * st (Co 0 0 (p + 2) (S k)) / nOverlap) ].

(** Reaction.tpp:240-287, the loop body over the products. *)
Definition loop1p (i p : nat) : list casg :=
  if validProd p then
    (Co 0 0 (p + 2) (S i), fun _ : cstore =>
       factor i * computeFirstOrderSum (thisRR p i) (otherRR p i) (cl2 r i) (cl1 r i)
       / thisDisp p i)
    :: flat_map (loop1k i p) axes
  else [].

(** Reaction.tpp:223-288, the first loop body over i. *)
Definition loop1 (i : nat) : list casg :=
  [ (Co (S i) 0 0 0, fun _ : cstore =>
       factor i * computeFirstOrderSum (cl1 r i) (cl2 r i) (q1 r i) (q2 r i));
    (Co 0 0 0 (S i), fun st : cstore => st (Co (S i) 0 0 0) / disp1 r i);
    (Co 0 (S i) 0 0, fun _ : cstore =>
       factor i * computeFirstOrderSum (cl2 r i) (cl1 r i) (q1 r i) (q2 r i));
    (Co 0 0 1 (S i), fun st : cstore => st (Co 0 (S i) 0 0) / disp2 r i) ]
  ++ flat_map (loop1p i) (seq 0 2).

(** Reaction.tpp:292-318. The [+=] loop over m and l is one assignment adding
    the (constant) sum to the previous value. *)
Definition loop2a (i j : nat) : list casg :=
  [ (Co (S i) (S j) 0 0,
     if i =? j then fun st : cstore =>
       st (Co (S i) (S j) 0 0)
       + factor i * mixedSecondOrderSum (cl1 r j) (cl2 r j) (q1 r j) (q2 r j)
     else fun st : cstore =>
       st (Co (S i) 0 0 0) * st (Co 0 (S j) 0 0) / nOverlap) ].

(** Reaction.tpp:323-349. *)
Definition loop2b (i k : nat) : list casg :=
  (if k =? i then
    [ (Co (S i) 0 0 (S k), fun _ : cstore =>
         factor i * computeSecondOrderSum (cl1 r i) (cl2 r i) (q1 r i) (q2 r i) / disp1 r i);
      (Co 0 (S i) 1 (S k), fun _ : cstore =>
         factor i * computeSecondOrderSum (cl2 r i) (cl1 r i) (q1 r i) (q2 r i) / disp2 r i) ]
   else
    [ (Co (S i) 0 0 (S k), fun st : cstore =>
         st (Co (S i) 0 0 0) * st (Co (S k) 0 0 0) / (nOverlap * disp1 r k));
      (Co 0 (S i) 1 (S k), fun st : cstore =>
         st (Co 0 (S i) 0 0) * st (Co 0 (S k) 0 0) / (nOverlap * disp2 r k)) ])
  ++ [ (Co 0 (S i) 0 (S k), fun st : cstore => st (Co (S k) (S i) 0 0) / disp1 r k);
       (Co (S i) 0 1 (S k), fun st : cstore => st (Co (S i) (S k) 0 0) / disp2 r k) ].

(** Reaction.tpp:374-426, products, for fixed i, j, p. *)
Definition loop2pk (i j p k : nat) : list casg :=
  [ (Co (S i) (S j) (p + 2) (S k),
     if ((i =? j) && (j =? k))%bool then fun st : cstore =>
       (st (Co (S i) (S j) (p + 2) (S k))
        + factor i * mixedThirdOrderSum (cl1 r i) (cl2 r i) (thisRR p i) (otherRR p i))
       / thisDisp p k
     else if j =? k then fun st : cstore =>
       st (Co (S i) 0 0 0) * st (Co 0 (S j) (p + 2) (S k)) / nOverlap
     else if i =? k then fun st : cstore =>
       st (Co 0 (S j) 0 0) * st (Co (S i) 0 (p + 2) (S k)) / nOverlap
     else if i =? j then fun st : cstore =>
       st (Co 0 0 (p + 2) (S k)) * st (Co (S i) (S j) 0 0) / nOverlap
     else fun st : cstore =>
       st (Co (S i) 0 0 0) * st (Co 0 (S j) 0 0) * st (Co 0 0 (p + 2) (S k))
       / (nOverlap * nOverlap)) ].

Definition loop2p (i j p : nat) : list casg :=
  if validProd p then flat_map (loop2pk i j p) axes else [].

(** Reaction.tpp:430-478, reactants, for fixed i, j. *)
Definition loop2rk (i j k : nat) : list casg :=
  if ((i =? j) && (j =? k))%bool then
    [ (Co (S i) (S j) 0 (S k), fun _ : cstore =>
         factor i * computeThirdOrderSum (cl2 r i) (cl1 r i) (q1 r i) (q2 r i) / disp1 r i);
      (Co (S i) (S j) 1 (S k), fun _ : cstore =>
         factor i * computeThirdOrderSum (cl1 r i) (cl2 r i) (q1 r i) (q2 r i) / disp2 r i) ]
  else if i =? k then
    [ (Co (S i) (S j) 0 (S k), fun st : cstore =>
         st (Co 0 (S j) 0 0) * st (Co (S i) 0 0 (S k)) / nOverlap);
      (Co (S i) (S j) 1 (S k), fun st : cstore =>
         st (Co 0 (S j) 0 0) * st (Co (S i) 0 1 (S k)) / nOverlap) ]
  else if j =? k then
    [ (Co (S i) (S j) 0 (S k), fun st : cstore =>
         st (Co (S i) 0 0 0) * st (Co 0 (S j) 0 (S k)) / nOverlap);
      (Co (S i) (S j) 1 (S k), fun st : cstore =>
         st (Co (S i) 0 0 0) * st (Co 0 (S j) 1 (S k)) / nOverlap) ]
  else if i =? j then
    [ (Co (S i) (S j) 0 (S k), fun st : cstore =>
         st (Co 0 0 0 (S k)) * st (Co (S i) (S j) 0 0) / nOverlap);
      (Co (S i) (S j) 1 (S k), fun st : cstore =>
         st (Co 0 0 1 (S k)) * st (Co (S i) (S j) 0 0) / nOverlap) ]
  else
    [ (Co (S i) (S j) 0 (S k), fun st : cstore =>
         st (Co (S i) 0 0 0) * st (Co 0 (S j) 0 0) * st (Co (S k) 0 0 0)
         / (nOverlap * nOverlap * disp1 r k));
      (Co (S i) (S j) 1 (S k), fun st : cstore =>
         st (Co (S i) 0 0 0) * st (Co 0 (S j) 0 0) * st (Co 0 (S k) 0 0)
         / (nOverlap * nOverlap * disp2 r k)) ].

Definition loop2j (i j : nat) : list casg :=
  flat_map (loop2p i j) (seq 0 2) ++ flat_map (loop2rk i j) axes.

(** Reaction.tpp:290-480, the second loop body over i. *)
Definition loop2 (i : nat) : list casg :=
  flat_map (loop2a i) axes ++ flat_map (loop2b i) axes ++ flat_map (loop2j i) axes.

(** Reaction.tpp:222-480. *)
Definition coefProgram : list casg :=
  (Co 0 0 0 0, fun _ : cstore => nOverlap)
  :: flat_map loop1 axes ++ flat_map loop2 axes.

Definition prodCoefs : cstore := exec cidx_dec coefProgram (fun _ => 0).
End PROD.

(** ** Dissociation (and, with identical text, ReSolutionReaction.tpp:49-146) *)
Record dreact := DR {
  dna : nat;
  dcl : nat -> ival;   (* clRR, the parent *)
  dcl2 : nat -> ival;  (* cl2RR, reflected dummy region *)
  dp1 : nat -> ival;   (* pr1RR *)
  dp2 : nat -> ival;   (* pr2RR *)
  ddisp : nat -> R;    (* clDisp *)
  dd1 : nat -> R;      (* prod1Disp *)
  dd2 : nat -> R       (* prod2Disp *)
}.

Section DISS.
Variable r : dreact.
Definition daxes : list nat := seq 0 (dna r).

(** Reaction.tpp:2276. *)
Definition dwidth (i : nat) : R := overlapWidth (dp1 r i) (dp2 r i) (dcl r i) (dcl2 r i).
Definition dnOverlap : R := Rprod daxes dwidth.
Definition dfactor (i : nat) : R := dnOverlap / dwidth i.

(** Reaction.tpp:2280-2285. *)
Definition dloop1 (i : nat) : list casg :=
  [ (Co (S i) 0 0 0, fun _ : cstore =>
       dfactor i * computeFirstOrderSum (dcl r i) (dcl2 r i) (dp2 r i) (dp1 r i)) ].

(** Reaction.tpp:2288-2303. *)
Definition dloop2 (k : nat) : list casg :=
  [ (Co 0 0 0 (S k), fun st : cstore => st (Co (S k) 0 0 0) / ddisp r k);
    (Co 0 0 1 (S k), fun _ : cstore =>
       dfactor k * computeFirstOrderSum (dp1 r k) (dp2 r k) (dcl r k) (dcl2 r k) / dd1 r k);
    (Co 0 0 2 (S k), fun _ : cstore =>
       dfactor k * computeFirstOrderSum (dp2 r k) (dp1 r k) (dcl r k) (dcl2 r k) / dd2 r k) ].

(** Reaction.tpp:2311-2338. *)
Definition dloop3k (i k : nat) : list casg :=
  if k =? i then
    [ (Co (S i) 0 0 (S k), fun _ : cstore =>
         dfactor i * computeSecondOrderSum (dcl r i) (dcl2 r i) (dp2 r i) (dp1 r i) / ddisp r k);
      (Co (S i) 0 1 (S k), fun _ : cstore =>
         dfactor i * computeSecondOrderOffsetSum (dcl r i) (dcl2 r i) (dp1 r i) (dp2 r i) / dd1 r k);
      (Co (S i) 0 2 (S k), fun _ : cstore =>
         dfactor i * computeSecondOrderOffsetSum (dcl r i) (dcl2 r i) (dp2 r i) (dp1 r i) / dd2 r k) ]
  else
    [ (Co (S i) 0 0 (S k), fun st : cstore =>
         st (Co (S i) 0 0 0) * st (Co (S k) 0 0 0) / (dnOverlap * ddisp r k));
      (Co (S i) 0 1 (S k), fun st : cstore =>
         st (Co (S i) 0 0 0) * st (Co 0 0 1 (S k)) / dnOverlap);
      (Co (S i) 0 2 (S k), fun st : cstore =>
         st (Co (S i) 0 0 0) * st (Co 0 0 2 (S k)) / dnOverlap) ].

Definition dloop3 (i : nat) : list casg := flat_map (dloop3k i) daxes.

Definition dcoefProgram : list casg :=
  (Co 0 0 0 0, fun _ : cstore => dnOverlap)
  :: flat_map dloop1 daxes ++ flat_map dloop2 daxes ++ flat_map dloop3 daxes.

Definition dissCoefs : cstore := exec cidx_dec dcoefProgram (fun _ => 0).
End DISS.
