(** Model of the finite-difference terms for one diffusing or advecting cluster at one
    grid point. Stencil values are numbered as in the code: 0 middle, 1 left, 2 right,
    3 bottom, 4 top, 5 front, 6 back. *)
From Coq Require Export Reals List Lia Lra.
From Verif Require Export Partial.
Export ListNotations.
Set Implicit Arguments.
Open Scope R_scope.
Open Scope bool_scope.

(** The spacings and the cluster data used at one grid point. *)
Record loc := Loc { hl : R; hr : R;                 (* hxLeft, hxRight *)
                    sy : R; sz : R;                  (* 1/hy^2, 1/hz^2 *)
                    Dl : R; Dm : R; Dr : R }.        (* getDiffusionCoefficient(ix), (ix+1), (ix+2) *)
(** [m k]: the diffusion mask (0 or 1) at stencil point [k]. *)

(** core/src/diffusion/Diffusion1DHandler.cpp:104-125 *)
Definition diff1 (p : loc) (m c : nat -> R) : R :=
  let o k := c k * m k in
  Dm p * 2 * (o 1%nat + (hl p / hr p) * o 2%nat - (1 + hl p / hr p) * o 0%nat) / (hl p * (hl p + hr p)) +
  (Dr p - Dl p) * (o 2%nat - o 1%nat) / ((hl p + hr p) * (hl p + hr p)).
(** Diffusion1DHandler.cpp:142-161 *)
Definition dval1 (p : loc) (m : nat -> R) (k : nat) : R :=
  match k with
  | 0%nat => (-2 * Dm p / (hl p * hr p)) * m 0%nat
  | 1%nat => (Dm p * 2 / (hl p * (hl p + hr p)) + (Dl p - Dr p) / ((hl p + hr p) * (hl p + hr p))) * m 1%nat
  | 2%nat => (Dm p * 2 / (hr p * (hl p + hr p)) + (Dr p - Dl p) / ((hl p + hr p) * (hl p + hr p))) * m 2%nat
  | _ => 0
  end.
(** core/src/diffusion/Diffusion2DHandler.cpp:120-145 *)
Definition diff2 (p : loc) (m c : nat -> R) : R :=
  let o k := c k * m k in
  Dm p * (2 * (o 1%nat + (hl p / hr p) * o 2%nat - (1 + hl p / hr p) * o 0%nat) / (hl p * (hl p + hr p)) +
          sy p * (o 3%nat + o 4%nat - 2 * o 0%nat)) +
  (Dr p - Dl p) * (o 2%nat - o 1%nat) / ((hl p + hr p) * (hl p + hr p)).
(** Diffusion2DHandler.cpp:160-182 *)
Definition dval2 (p : loc) (m : nat -> R) (k : nat) : R :=
  match k with
  | 0%nat => -2 * Dm p * (1 / (hl p * hr p) + sy p) * m 0%nat
  | 1%nat => (Dm p * 2 / (hl p * (hl p + hr p)) + (Dl p - Dr p) / ((hl p + hr p) * (hl p + hr p))) * m 1%nat
  | 2%nat => (Dm p * 2 / (hr p * (hl p + hr p)) + (Dr p - Dl p) / ((hl p + hr p) * (hl p + hr p))) * m 2%nat
  | 3%nat => Dm p * sy p * m 3%nat
  | 4%nat => Dm p * sy p * m 4%nat
  | _ => 0
  end.
(** core/src/diffusion/Diffusion3DHandler.cpp:132-162 *)
Definition diff3 (p : loc) (m c : nat -> R) : R :=
  let o k := c k * m k in
  Dm p * (2 * (o 1%nat + (hl p / hr p) * o 2%nat - (1 + hl p / hr p) * o 0%nat) / (hl p * (hl p + hr p)) +
          sy p * (o 3%nat + o 4%nat - 2 * o 0%nat) + sz p * (o 5%nat + o 6%nat - 2 * o 0%nat)) +
  (Dr p - Dl p) * (o 2%nat - o 1%nat) / ((hl p + hr p) * (hl p + hr p)).
(** Diffusion3DHandler.cpp:178-207 *)
Definition dval3 (p : loc) (m : nat -> R) (k : nat) : R :=
  match k with
  | 0%nat => -2 * Dm p * (1 / (hl p * hr p) + sy p + sz p) * m 0%nat
  | 1%nat => (Dm p * 2 / (hl p * (hl p + hr p)) + (Dl p - Dr p) / ((hl p + hr p) * (hl p + hr p))) * m 1%nat
  | 2%nat => (Dm p * 2 / (hr p * (hl p + hr p)) + (Dr p - Dl p) / ((hl p + hr p) * (hl p + hr p))) * m 2%nat
  | 3%nat => Dm p * sy p * m 3%nat
  | 4%nat => Dm p * sy p * m 4%nat
  | 5%nat => Dm p * sz p * m 5%nat
  | 6%nat => Dm p * sz p * m 6%nat
  | _ => 0
  end.

(** ** Advection *)
(** Data of an advection handler at a grid point: distance information along the
    direction of the handler, sink strength, diffusion coefficients and temperatures. *)
Record adv := Adv { pos : R; location : R; ah1 : R; ah2 : R;   (* spacing towards smaller / larger positions *)
                    strength : R; aD : R; aT : R;               (* at ix + 1 *)
                    aDr : R; aTr : R }.                         (* at ix + 2 *)
Definition kB : R := 8.6173324e-5.
(** SurfaceAdvectionHandler.cpp:136-158; [m]: the advection mask. *)
Definition advS (p : adv) (m c : nat -> R) : R :=
  let d := pos p - location p in
  (3 * strength p * aD p) * ((c 2%nat * m 2%nat) / (d + ah2 p) ^ 4 - (c 0%nat * m 0%nat) / d ^ 4) / (kB * aT p * ah2 p) +
  (3 * strength p * (c 0%nat * m 0%nat)) * (aDr p / aTr p - aD p / aT p) / (kB * ah2 p * d ^ 4).
(** SurfaceAdvectionHandler.cpp:180-201; value 0 (middle) and 1 (right). *)
Definition advSval (p : adv) (m : nat -> R) (v : nat) : R :=
  let d := pos p - location p in
  match v with
  | 0%nat => - (3 * strength p * aD p) / (kB * aT p * ah2 p * d ^ 4) * m 0%nat +
             (3 * strength p) * (aDr p / aTr p - aD p / aT p) / (kB * ah2 p * d ^ 4) * m 0%nat
  | _ => (3 * strength p * aD p) / (kB * aT p * ah2 p * (d + ah2 p) ^ 4) * m 2%nat
  end.

(** Grain boundaries: XGB uses the points 1, 2 and the spacings hxLeft, hxRight; YGB the
    points 3, 4 and hy on both sides; ZGB the points 5, 6 and hz.
    XGBAdvectionHandler.cpp:121-175, YGBAdvectionHandler.cpp:121-167,
    ZGBAdvectionHandler.cpp:122-169. *)
Definition onSink (p : adv) : bool := if Rlt_dec (Rabs (location p - pos p)) 0.001 then true else false.
Definition above (p : adv) : bool := if Rlt_dec (location p) (pos p) then true else false.
Definition below (p : adv) : bool := if Rlt_dec (pos p) (location p) then true else false.
Definition b2r (b : bool) : R := if b then 1 else 0.
Definition b2n (b : bool) : nat := if b then 1%nat else 0%nat.
Definition gbStep (p : adv) : R := ah2 p * b2r (above p) + ah1 p * b2r (below p).
(** [lo], [hi]: stencil numbers of the two neighbours. *)
Definition gbIndex (lo hi : nat) (p : adv) : nat := (hi * b2n (above p) + lo * b2n (below p))%nat.
Definition advGB (lo hi : nat) (p : adv) (c : nat -> R) : R :=
  if onSink p then
    (3 * strength p * aD p) * (c lo / ah1 p ^ 5 + c hi / ah2 p ^ 5) / (kB * aT p)
  else
    let a := Rabs (location p - pos p) in
    let b := Rabs (location p - pos p) + gbStep p in
    (3 * strength p * aD p) * (c (gbIndex lo hi p) / b ^ 4 - c 0%nat / a ^ 4) / (kB * aT p * gbStep p).
(** computePartialsForAdvection: [None] when the entry is not written (XGB on the sink
    unless the dimension is 1). XGBAdvectionHandler.cpp:190-231,
    YGBAdvectionHandler.cpp:180-214, ZGBAdvectionHandler.cpp:182-216. *)
Definition advGBval (written : bool) (p : adv) (v : nat) : option R :=
  if onSink p then
    if written then
      match v with
      | 0%nat => Some ((3 * strength p * aD p) / (kB * aT p * ah1 p ^ 5))
      | _ => Some ((3 * strength p * aD p) / (kB * aT p * ah2 p ^ 5))
      end
    else None
  else
    let a := Rabs (location p - pos p) in
    let b := Rabs (location p - pos p) + gbStep p in
    match v with
    | 0%nat => Some (- (3 * strength p * aD p) / (kB * aT p * (a * a * a * a) * gbStep p))
    | _ => Some ((3 * strength p * aD p) / (kB * aT p * (b * b * b * b) * gbStep p))
    end.
(** The stencil offset along the direction (getStencilForAdvection:
    XGBAdvectionHandler.cpp:234-244, YGBAdvectionHandler.cpp:217-227,
    ZGBAdvectionHandler.cpp:219-229), and the two stencil
    points announced for the values 0 and 1 (PetscSolver1DHandler.cpp:218-236 and the
    2D and 3D versions). [offPoint lo hi o]: the neighbour at offset [o]. *)
Definition gbOffset (p : adv) : Z :=
  if onSink p then 1%Z else (Z.of_nat (b2n (above p)) - Z.of_nat (b2n (below p)))%Z.
Definition offPoint (lo hi : nat) (o : Z) : nat := if (o =? 0)%Z then 0%nat else if (o <? 0)%Z then lo else hi.
Definition gbPoint (lo hi : nat) (p : adv) (v : nat) : nat :=
  match v with
  | 0%nat => if onSink p then offPoint lo hi (- gbOffset p) else 0%nat
  | _ => offPoint lo hi (gbOffset p)
  end.
(** The preallocation of the 2D and 3D solvers asks the handlers for their stencil at the
    position (x, 0, 0) (PetscSolver2DHandler.cpp:232-236, PetscSolver3DHandler.cpp:285-289),
    the values are computed at (x, y, z) (PetscSolver2DHandler.cpp:1328,
    PetscSolver3DHandler.cpp:1474-1475). [announced p]: the handler data used by the
    preallocation for a handler across y or z. *)
Definition announced (p : adv) : adv :=
  Adv 0 (location p) (ah1 p) (ah2 p) (strength p) (aD p) (aT p) (aDr p) (aTr p).
(** The matrix entry for stencil point [k] which results from the two announced values;
    [pa]: the data at preallocation, [p]: the data at evaluation. *)
Definition advEntryAt (lo hi : nat) (pa p : adv) (written : bool) (k : nat) : R :=
  Rsum [0%nat; 1%nat] (fun v => if (gbPoint lo hi pa v =? k)%nat then match advGBval written p v with Some x => x | None => 0 end else 0).
(** Size check at the start of computeAdvection (XGB and YGB need 5 stencil points, ZGB
    7, the surface handler 3; XGBAdvectionHandler.cpp:109-113, YGBAdvectionHandler.cpp:109-113,
    ZGBAdvectionHandler.cpp:109-113, SurfaceAdvectionHandler.cpp:116-120); [None]: exception. *)
Definition guard (need have : nat) (A : Type) (x : A) : option A := if Nat.ltb have need then None else Some x.

(** ** Soret diffusion: core/src/modified/SoretDiffusionHandler.cpp:158-180 *)
Record soret := Soret { shl : R; shr : R; beta : R; sDl : R; sDm : R; sDr : R; sTl : R; sTm : R; sTr : R }.
Definition soretFlux (p : soret) (c : nat -> R) : R :=
  - (2 * beta p * sDm p * c 0%nat * (sTl p + (shl p / shr p) * sTr p - (1 + shl p / shr p) * sTm p) / (shl p * (shl p + shr p)) +
     beta p * sDm p * (c 2%nat - c 1%nat) * (sTr p - sTl p) / ((shl p + shr p) * (shl p + shr p)) +
     beta p * c 0%nat * (sDr p - sDl p) * (sTr p - sTl p) / ((shl p + shr p) * (shl p + shr p))).
(** SoretDiffusionHandler.cpp:203-233; the values start at 0 (resetJacobianValues) and are not written when
    the three concentrations vanish. *)
Definition nearZero (eps x : R) : bool := if Rlt_dec (Rabs x) eps then true else false.
Definition soretVal (eps : R) (p : soret) (c : nat -> R) (k : nat) : R :=
  if nearZero eps (c 0%nat) && nearZero eps (c 1%nat) && nearZero eps (c 2%nat) then 0
  else match k with
  | 0%nat => -2 * beta p * sDm p * (sTl p + (shl p / shr p) * sTr p - (1 + shl p / shr p) * sTm p) / (shl p * (shl p + shr p)) -
             beta p * (sDr p - sDl p) * (sTr p - sTl p) / ((shl p + shr p) * (shl p + shr p))
  | 1%nat => beta p * sDm p * (sTr p - sTl p) / ((shl p + shr p) * (shl p + shr p))
  | 2%nat => - beta p * sDm p * (sTr p - sTl p) / ((shl p + shr p) * (shl p + shr p))
  | _ => 0
  end.
(** The unknowns of a grid point: clusters, and the temperature as the last one. The
    handler announces only the pair (cluster, cluster) (SoretDiffusionHandler.cpp:91-93), so the
    row of the cluster [id] has no entry in the column of the temperature. *)
Definition soretEntry (id : nat) (eps : R) (p : soret) (c : nat -> R) (col k : nat) : R :=
  if Nat.eqb col id then soretVal eps p c k else 0.
