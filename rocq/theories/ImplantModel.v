(** Model of the implanted flux: core/src/flux/FluxHandler.cpp:40-119, 203-270 and
    core/include/xolotl/core/flux/CustomFitFluxHandler.h:94-291, 296-381. One entry of
    [kinds] per implanted cluster (fit function, reduction factor); the base class has
    the single entry (fit, 1). Parsing of the parameter file and the copies to the
    device are not modelled. *)
From Coq Require Export Reals List Lia Lra.
From Verif Require Export Sums ProfileModel.
Export ListNotations.
Set Implicit Arguments.
Open Scope R_scope.

Definition gr (g : list R) (i : nat) : R := nth i g 0.
(** [for (int i = surfacePos + 1; i < xGrid.size() - 3; i++)]; the grid has at least
    three points (otherwise the unsigned bound wraps). *)
Definition cells (g : list R) (sp : nat) : list nat := seq (sp + 1) (length g - 3 - (sp + 1)).
(** lines 62, 85, 112 *)
Definition depth (g : list R) (sp i : nat) : R := (gr g i + gr g (i + 1)) / 2 - gr g (sp + 1).
Definition width (g : list R) (i : nat) : R := gr g (i + 1) - gr g i.
(** lines 55-66 *)
Definition norm (fit : R -> R) (g : list R) (sp : nat) : R := Rsum (cells g sp) (fun i => fit (depth g sp i) * width g i).
(** lines 68-72 *)
Definition normalized (amp red nf : R) : R := if Rlt_dec 0 nf then amp * red / nf else 0.
(** lines 74-94 *)
Definition initVec (fit : R -> R) (amp red nf : R) (g : list R) (sp : nat) : list R :=
  0 :: map (fun i => normalized amp red nf * fit (depth g sp i)) (cells g sp) ++ [0].
Definition kinds := list ((R -> R) * R).
Record handler := Handler { norms : list R; vecs : list (list R); hgrid : list R }.
Definition initialize (ks : kinds) (amp : R) (sp : nat) (g : list R) : handler :=
  Handler (map (fun k => norm (fst k) g sp) ks)
          (map (fun k => initVec (fst k) amp (snd k) (norm (fst k) g sp) g sp) ks) g.
(** Write [v[j] = x]; [None]: out of bounds. *)
Fixpoint upd (v : list R) (j : nat) (x : R) : option (list R) :=
  match v, j with
  | [], _ => None
  | _ :: t, O => Some (x :: t)
  | a :: t, S j' => match upd t j' x with None => None | Some t' => Some (a :: t') end
  end.
Fixpoint writes (f : nat -> R) (sp : nat) (is : list nat) (v : list R) : option (list R) :=
  match is with [] => Some v | i :: r => match upd v (i - sp) (f i) with None => None | Some v' => writes f sp r v' end end.
(** lines 100-119 *)
Definition recomputeVec (fit : R -> R) (amp red nf : R) (g : list R) (sp : nat) (v : list R) : option (list R) :=
  writes (fun i => normalized amp red nf * fit (depth g sp i)) sp (cells g sp) v.
(** lines 203-230 / 296-327: what is added for kind [k] at grid point [xi]. *)
Definition incident (v : list R) (sp xi : nat) : option R := nth_error v (xi - sp).
(** lines 232-270: the fluences; [rs] are the reduction factors. *)
Fixpoint zipadd (f r : list R) (x : R) : list R :=
  match f, r with a :: f', b :: r' => (a + x * b) :: zipadd f' r' x | _, _ => f end.
Definition incrementFluence (rs : list R) (amp dt : R) (f : list R) : list R :=
  match f with
  | [] => []
  | f0 :: t => (f0 + amp * dt) ::
      (match rs with [] => t | _ :: _ => zipadd (match t with [] => repeat 0 (length rs) | _ => t end) rs (amp * dt) end)
  end.
