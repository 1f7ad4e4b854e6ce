(** Model of the reactions without coefficients: trap mutation
    (TrapMutationReaction.tpp/.h), nucleation (NucleationReaction.tpp) and sinks
    (SinkReaction.h). *)
From Verif Require Export ConstModel.
Set Implicit Arguments.
Open Scope R_scope.

(** ** Trap mutation. TrapMutationClusterData.h:77-82. *)
Record tmdata := TD {
  desorpId : nat;             (* desorption().id *)
  portion : R;                (* desorption().portion *)
  lsRate : R;                 (* currentDesorpLeftSideRate *)
  disap : R;                  (* currentDisappearingRate *)
  tmVSizes : nat -> nat;      (* tmVSizes[l] *)
  tmEnabled : nat -> bool     (* tmEnabled[l] *)
}.
(** TrapMutationReaction.h:182-186. *)
Record tmx := TM { heCl : nat; heVCl : nat; iCl : nat; heAmount : nat; vSize : nat; tmRate : R }.

(** TrapMutationReaction.tpp:46-60 computeRate(largestRate). *)
Definition tmComputeRate (D : tmdata) (t : tmx) (largest : R) : R :=
  if (heCl t =? desorpId D)%nat then (1 - portion D) / portion D else 1000 * largest.
(** TrapMutationReaction.tpp:93-106 getAppliedRate. *)
Definition applied (D : tmdata) (t : tmx) : R :=
  (if (heCl t =? desorpId D)%nat then tmRate t * lsRate D else tmRate t) * disap D.
(** TrapMutationReaction.tpp:108-116 getEnabled. *)
Definition enabled (D : tmdata) (t : tmx) : bool :=
  (tmEnabled D (heAmount t - 1) && (tmVSizes D (heAmount t - 1) =? vSize t))%nat%bool.
(** TrapMutationReaction.tpp:118-134 computeFlux. *)
Definition tmFlux (D : tmdata) (t : tmx) (conc : nat -> R) : contribs :=
  when (enabled D t)
    (let f := applied D t * conc (heCl t) in [(heCl t, - f); (heVCl t, f); (iCl t, f)]).
(** TrapMutationReaction.tpp:136-152, 154-167 and TrapMutationReaction.h:149-156. *)
Definition tmPartials (D : tmdata) (t : tmx) : jcontribs :=
  when (enabled D t)
    [(Some (heCl t), Some (heCl t), - applied D t); (Some (heVCl t), Some (heCl t), applied D t);
     (Some (iCl t), Some (heCl t), applied D t)].
Definition tmReduced (D : tmdata) (t : tmx) : jcontribs :=
  when (enabled D t) [(Some (heCl t), Some (heCl t), - applied D t)].
(** TrapMutationReaction.tpp:73-91. *)
Definition tmConn (t : tmx) : pairs :=
  [(Some (heCl t), Some (heCl t)); (Some (heVCl t), Some (heCl t)); (Some (iCl t), Some (heCl t))].
Definition tmConnRed (t : tmx) : pairs := [(Some (heCl t), Some (heCl t))].
(** TrapMutationReaction.tpp:169-196 computeConstantRates with the entries of
    TrapMutationReaction.h:158-179: both test [_heClId] where the bubble
    [_heVClId] is meant. *)
Definition tmConst (inS : nat -> bool) (D : tmdata) (t : tmx) (conc : nat -> R) : rcontribs :=
  when (enabled D t)
    (if inS (heCl t) then [] else
     if (negb (inS (heVCl t)) && negb (inS (iCl t)))%bool then [] else
     let f := applied D t * conc (heCl t) in
     when (inS (heCl t)) [(Some (heCl t), None, f)]
     ++ when (inS (iCl t)) [(Some (iCl t), None, f)]).

(** PSIReactionNetwork.tpp:112-135 selectTrapMutationReactions for one helium
    size with mutation depth [dl]. *)
Definition selects (depth spacing dl : R) : bool :=
  if Req_EM_T dl 0 then false
  else if Rlt_dec dl (depth + 1 / 100) then
         if Rgt_dec dl (depth - spacing - 1 / 100) then true else false
       else false.

(** ** Nucleation *)
Record nux := NU { nR : nat; nP : nat; nRate : R }.
(** NucleationReaction.tpp:31-42 computeRate. *)
Definition nuComputeRate (fission : R) : R := 50 * fission.
(** NucleationReaction.tpp:69-87 computeFlux. *)
Definition nuFlux (u : nux) (conc : nat -> R) : contribs :=
  if Rgt_dec (conc (nR u)) (2 * nRate u)
  then [(nR u, - (2 * nRate u)); (nP u, nRate u)]
  else [(nR u, - conc (nR u)); (nP u, conc (nR u) / 2)].
(** NucleationReaction.tpp:89-107, 109-128 and 130-138. *)
Definition nuPartials (u : nux) (conc : nat -> R) : jcontribs :=
  if Rgt_dec (conc (nR u)) (2 * nRate u) then []
  else [(Some (nR u), Some (nR u), - 1); (Some (nP u), Some (nR u), 1 / 2)].
Definition nuReduced (u : nux) (conc : nat -> R) : jcontribs :=
  if Rgt_dec (conc (nR u)) (2 * nRate u) then []
  else [(Some (nR u), Some (nR u), - 1)]
       ++ when (nP u =? nR u)%nat [(Some (nP u), Some (nR u), 1 / 2)].
(** NucleationReaction.tpp:44-67. *)
Definition nuConn (u : nux) : pairs := [(Some (nR u), Some (nR u)); (Some (nP u), Some (nR u))].
Definition nuConnRed (u : nux) : pairs :=
  (Some (nR u), Some (nR u)) :: when (nP u =? nR u)%nat [(Some (nP u), Some (nR u))].

(** ** Sinks *)
Record skx := SK { sR : nat; sRate : R }.
(** SinkReaction.tpp:14-26 computeRate. *)
Definition sinkComputeRate (bias strength diff : R) : R := bias * strength * diff.
(** SinkReaction.h:101-126. *)
Definition sinkFlux (k : skx) (conc : nat -> R) : contribs := [(sR k, - (conc (sR k) * sRate k))].
Definition sinkPartials (k : skx) : jcontribs := [(Some (sR k), Some (sR k), - sRate k)].
Definition sinkReduced (k : skx) : jcontribs := [(Some (sR k), Some (sR k), - sRate k)].
(** SinkReaction.h:85-99. *)
Definition sinkConn (k : skx) : pairs := [(Some (sR k), Some (sR k))].

(** ** Left-side rates: Reaction.tpp:1815-1833 and 2985-2998,
    ReactionNetwork.tpp getLeftSideRate sums them over all reactions. *)
Definition prodLeft (x : prx) (conc : nat -> R) (c : nat) : R :=
  if (c =? ra x)%nat then rate x * conc (rb x) * cf x (Co 0 0 0 0)
  else if (c =? rb x)%nat then rate x * conc (ra x) * cf x (Co 0 0 0 0)
  else 0.
Definition dissLeft (y : drx) (c : nat) : R :=
  if (c =? rp y)%nat then drate y * dcf y (Co 0 0 0 0) else 0.
