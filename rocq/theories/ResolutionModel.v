(** Model of the re-solution of gas by fission in the fuel: which reactions there are
    (NEReactionNetwork.tpp:346-399, ReSolutionReactionGenerator.tpp:44-70, ReactionGenerator.tpp:28-58)
    and how fast they are (ReSolutionReaction.tpp:148-196). The fluxes and coefficients are those of FluxModel
    and CoefModel. The two passes of the generator (counting, construction) call the same function; the order in
    which the threads put the reactions of a cluster is not modelled, the list has the order of the loops.
    A cluster is a box of GenModel: one axis of gas (xenon), vacancies, interstitials. *)
From Coq Require Export Reals.
From Verif Require Export GenModel.
Set Implicit Arguments.
Open Scope Z_scope.

(** NEReactionNetwork.tpp:349-354: the origins of the clusters. *)
Definition loXe (b : box) : Z := match gas b with (l, _) :: _ => l | [] => 0 end.
Definition loV (b : box) : Z := fst (vac b).
(** 374-377 *)
Definition ejects (b1 b2 : box) : bool :=
  ((loXe b1 =? 1) && (loV b1 =? 1) && (0 <? loXe b2) && (0 <? loV b2)) ||
  ((loXe b2 =? 1) && (loV b2 =? 1) && (0 <? loXe b1) && (0 <? loV b1)).
(** 378-398: the sets {k, i, j}; ReSolutionReactionGenerator.tpp:49-50, 61-62: nothing if the process is switched off. *)
Definition reSolve (enabled : bool) (clusters : list box) (i j : nat) : list (nat * nat * nat) :=
  let b1 := nth i clusters (Box [] (0, 0) (0, 0)) in
  let b2 := nth j clusters (Box [] (0, 0) (0, 0)) in
  if enabled && ejects b1 b2 then map (fun k => (k, i, j)) (generalProducts b1 b2 clusters) else [].
(** ReactionGenerator.tpp:35-43, 50-57: the pairs i <= j. *)
Definition reSolutions (enabled : bool) (clusters : list box) : list (nat * nat * nat) :=
  let n := length clusters in
  flat_map (fun i => flat_map (fun j => if (j <? i)%nat then [] else reSolve enabled clusters i j) (seq 0 n)) (seq 0 n).

Open Scope R_scope.
(** ReSolutionReaction.tpp:157-184 *)
Definition above (z t : R) : bool := if Rlt_dec t z then true else false.
Record fitted := Fitted { y0 : R; a1 : R; b1 : R; b2 : R; cc : R }.
Definition fitOf (zeta : R) : fitted :=
  if above zeta 0.87 then Fitted 11.0851 1.5052 0.0362 0.0203 3.4123
  else if above zeta 0.82 then Fitted 10.6297 1.3479 0.0438 0.0241 4.2214
  else if above zeta 0.77 then Fitted 10.1521 1.1986 0.0546 0.0299 5.4612
  else if above zeta 0.71 then Fitted 9.1816 0.949 0.0703 0.0371 7.982
  else if above zeta 0.67 then Fitted 8.6745 0.8401 0.0792 0.0407 9.6585
  else if above zeta 0.62 then Fitted 7.6984 0.6721 0.1028 0.0526 14.272
  else if above zeta 0.57 then Fitted 6.3925 0.5025 0.1411 0.0727 23.1967
  else if above zeta 0.52 then Fitted 4.6175 0.3433 0.2284 0.1276 45.6624
  else Fitted 2.3061 0.2786 1.1008 1.605 150.6689.
(** 185-195; [radius]: the reaction radius of the bubble. *)
Definition fractionRate (f : fitted) (radius : R) : R :=
  (a1 f * exp (- b1 f * radius) + (y0 f - a1 f) / (1 + cc f * (radius * radius)) * exp (- b2 f * (radius * radius))) * / 10 ^ 4.
Definition reSolutionRate (zeta fissionRate radius : R) : R := fractionRate (fitOf zeta) radius * (10 ^ 8 * fissionRate).
