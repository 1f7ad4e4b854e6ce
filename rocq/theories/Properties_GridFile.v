(** C99: the grid in the file of a run. *)
From Coq Require Import List Reals ZArith Lra Lia.
From Verif Require Import GridFileModel.
Import ListNotations.
Open Scope R_scope.

(** A run in one, two or three dimensions with at least one point in depth: the grid in depth has one value more at each end. *)
Definition regular (s : setup) : Prop := (1 <= dimension s <= 3)%nat /\ (3 <= length (xGrid s))%nat.
Definition step_ (s : setup) (k : nat) (h : R) : Prop := exists a b, nth_error (xGrid s) k = Some a /\ nth_error (xGrid s) (S k) = Some b /\ b - a = h.

Lemma written s : regular s -> exists g0 g1 r, xGrid s = g0 :: g1 :: r /\
  startStop s = Some (Some (Step (Sizes (Z.of_nat (length (xGrid s)) - 2) (g1 - g0) 0 0 0 0) (Some (xGrid s)))).
Proof.
  intros [[A B] L]. destruct (xGrid s) as [|g0 [|g1 r]] eqn:E; cbn in L; try lia. exists g0, g1, r. split; [reflexivity|].
  unfold startStop. rewrite E. destruct (dimension s) as [|[|[|[|d]]]]; try lia; unfold writeGrid; (destruct (Z.ltb_spec 0 (Z.of_nat (length (g0 :: g1 :: r)) - 2)); [reflexivity|cbn [length] in *; lia]).
Qed.
(** In depth: the number of points and every position can be read back, and a restart has them whatever it asks for; the step given is the first one. *)
Theorem c99_depth s asked : regular s -> exists g,
  startStop s = Some (Some g) /\ readGrid g = Some (xGrid s) /\ (nx (readSizes g) + 2)%Z = Z.of_nat (length (xGrid s)) /\ (0 < nx (readSizes g))%Z /\ step_ s 0 (hx (readSizes g)) /\
  exists t, restarted g asked = Some t /\ xGrid t = xGrid s /\ dimension t = dimension asked /\ runNy t = runNy asked /\ runHy t = runHy asked /\ runNz t = runNz asked /\ runHz t = runHz asked.
Proof.
  intros H. destruct (written s H) as (g0 & g1 & r & E & W). destruct H as [_ L]. eexists. split; [exact W|]. cbn [readGrid gridSet readSizes attributes nx hx].
  split; [reflexivity|]. split; [lia|]. split; [lia|]. split; [exists g0, g1; rewrite E; repeat split|].
  eexists. split; [reflexivity|]. repeat split.
Qed.
Print Assumptions c99_depth.
(** On a uniform grid every step is the one of the file. *)
Theorem c99_uniform s g h : regular s -> startStop s = Some (Some g) -> (forall k, (S k < length (xGrid s))%nat -> step_ s k h) -> hx (readSizes g) = h.
Proof.
  intros H W U. destruct (written s H) as (g0 & g1 & r & E & W'). rewrite W' in W. injection W as <-. cbn [readSizes attributes hx].
  destruct H as [_ L]. destruct (U 0%nat ltac:(lia)) as (a & b & A & B & D). rewrite E in A, B. cbn in A, B. injection A as <-. injection B as <-. exact D.
Qed.
Print Assumptions c99_uniform.
(** In the other directions the file says nothing of the run: zero points and steps of zero, whatever the run has. *)
Theorem c99_across_refuted s : regular s -> exists g, startStop s = Some (Some g) /\
  ny (readSizes g) = 0%Z /\ hy (readSizes g) = 0 /\ nz (readSizes g) = 0%Z /\ hz (readSizes g) = 0.
Proof. intros H. destruct (written s H) as (g0 & g1 & r & E & W). eexists. split; [exact W|]. repeat split. Qed.
Print Assumptions c99_across_refuted.
(** So runs of different widths leave the same description, and a restart of the one continues as the other. *)
Theorem c99_width_refuted s t : regular s -> regular t -> xGrid s = xGrid t ->
  startStop s = startStop t /\ exists g, startStop s = Some (Some g) /\ restarted g t = Some t.
Proof.
  intros H K X. destruct (written s H) as (g0 & g1 & r & E & W), (written t K) as (g0' & g1' & r' & E' & W'). rewrite W, W'. rewrite E, E' in X. injection X as -> -> ->. rewrite E, E'. split; [reflexivity|].
  eexists. split; [reflexivity|]. unfold restarted. cbn [readGrid gridSet]. rewrite <- E'. destruct t; reflexivity.
Qed.
Print Assumptions c99_width_refuted.
(** A plane of five values in depth, with eight points of 0.5 nm, and with four of 2 nm across; the second step in depth is not the first one. *)
Example c99_ok : let s := Setup 2 [0; 1; 3; 6; 10] 8 0.5 0 0 in let t := Setup 2 [0; 1; 3; 6; 10] 4 2 0 0 in
  regular s /\ regular t /\ startStop s = startStop t /\ s <> t /\ step_ s 1 2 /\
  (let u := Setup 1 [0; 2; 4; 6] 0 0 0 0 in regular u /\ forall k, (S k < length (xGrid u))%nat -> step_ u k 2).
Proof.
  cbv zeta. unfold regular, step_. cbn [dimension xGrid length]. split; [lia|]. split; [lia|]. split; [reflexivity|]. split; [intros H; injection H; intros; lra|].
  split; [exists 1, 3; repeat split; lra|]. split; [lia|]. intros k K. destruct k as [|[|[|k]]]; [exists 0, 2|exists 2, 4|exists 4, 6|lia]; repeat split; lra.
Qed.
(** The step of the file is not that of a grid which is not uniform. *)
Theorem c99_step_refuted : exists s g h, regular s /\ startStop s = Some (Some g) /\ step_ s 1 h /\ hx (readSizes g) <> h.
Proof.
  exists (Setup 1 [0; 1; 3; 6; 10] 0 0 0 0). eexists. exists 2. split; [unfold regular; cbn; lia|]. split; [reflexivity|]. split; [exists 1, 3; cbn; repeat split; lra|]. cbn. lra.
Qed.
Print Assumptions c99_step_refuted.
