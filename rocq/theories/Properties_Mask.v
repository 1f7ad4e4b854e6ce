(** C33: switching diffusion off on the sinks. *)
From Verif Require Import MaskModel MaskProofs.
Open Scope R_scope.

(** The intended mask: the [n]-th diffusing cluster at the local point (ix, iy, iz) is
    switched off iff a handler of this cluster has its sink at the position of the point. *)
Definition offAt (hs : list sinkHandler) (ids : list nat) (p : position3) (n : nat) : Prop :=
  exists h id, In h hs /\ isSink h p = true /\ nth_error ids n = Some id /\ In id (advecting h).

(** Without a sink on the grid diffusion is on everywhere. *)
Theorem c33_no_sink ids grid nx xs ny ys nz zs hy hz hs :
  (forall h p, In h hs -> isSink h p = false) ->
  (exists m, diffusionGrid1 grid nx xs ids hs = Some m /\ forall ix n, read1 m ix n = true) /\
  (exists m, diffusionGrid2 grid nx xs ny ys hy ids hs = Some m /\ forall ix iy n, read2 m ix iy n = true) /\
  (exists m, diffusionGrid3 grid nx xs ny ys nz zs hy hz ids hs = Some m /\ forall ix iy iz n, read3 m ix iy iz n = true).
Proof.
  intros H.
  assert (A : forall valid pts, exists m, maskAll ids valid pts hs = Some m /\ forall r e, m r e = true).
  { intros valid pts. destruct (@mask_exact ids valid pts hs) as [m [E Hm]].
    - intros h r p Hh _ Hs. rewrite H in Hs by auto. discriminate.
    - exists m. split; [exact E|]. intros r e. destruct (m r e) eqn:Em; [reflexivity|]. apply Hm in Em.
      destruct Em as [h [p [Hh [_ [Hs _]]]]]. rewrite H in Hs by auto. discriminate. }
  unfold diffusionGrid1, diffusionGrid2, diffusionGrid3, read1, read2, read3.
  split; [|split]; edestruct A as [m [E Hm]]; exists m; (split; [exact E|]); intros; apply Hm.
Qed.
Example no_sink_ok : let hs := [SinkHandler [0%nat; 1%nat] (fun _ => false)] in forall h p, In h hs -> isSink h p = false.
Proof. intros hs h p [<-|[]]. reflexivity. Qed.

(** What the code does, when the advecting clusters are the first clusters of the network
    (ids below the number of diffusing clusters): the entry read at the local point [ix]
    for position [n] is governed by the sink at the point [ix + 1] and the cluster of id [n]. *)
Definition idsInRange (ids : list nat) (hs : list sinkHandler) : Prop :=
  forall h id, In h hs -> In id (advecting h) -> In id ids /\ (id < length ids)%nat.
Theorem c33_shifted_1d ids grid nx xs hs : idsInRange ids hs ->
  exists m, diffusionGrid1 grid nx xs ids hs = Some m /\
  forall ix n, read1 m ix n = false <->
    (ix + 1 < nx)%nat /\ exists h, In h hs /\ isSink h (xAt grid (ix + 1 + xs), 0, 0) = true /\ In n (advecting h).
Proof.
  intros Hr. destruct (@mask_exact ids (valid1 nx) (points1 grid nx xs) hs) as [m [E Hm]].
  - intros h r p Hh Hp _ id Hid. destruct (Hr h id Hh Hid) as [H1 H2]. repeat split; auto.
    apply in_map_iff in Hp. destruct Hp as [i [Ei Hi]]. inversion Ei. apply in_seq in Hi. cbn. apply Nat.ltb_lt. lia.
  - exists m. split; [exact E|]. intros ix n. unfold read1. rewrite Hm. split.
    + intros [h [p [Hh [Hp [Hs Hn]]]]]. apply in_map_iff in Hp. destruct Hp as [i [Ei Hi]]. inversion Ei. subst. apply in_seq in Hi.
      split; [lia|]. exists h. auto.
    + intros [Hx [h [Hh [Hs Hn]]]]. exists h, (xAt grid (ix + 1 + xs), 0, 0). repeat split; auto.
      apply in_map_iff. exists (ix + 1)%nat. split; [reflexivity|]. apply in_seq. lia.
Qed.
(** In two and three dimensions the shift is in x only; for a sink across y or z it only
    misses the last local point in x. *)
Theorem c33_shifted_2d ids grid nx xs ny ys hy hs : idsInRange ids hs ->
  exists m, diffusionGrid2 grid nx xs ny ys hy ids hs = Some m /\
  forall ix iy n, (iy < ny)%nat -> read2 m ix iy n = false <->
    (ix + 1 < nx)%nat /\ exists h, In h hs /\ isSink h (xAt grid (ix + 1 + xs), yAt hy (Z.of_nat (iy + ys)), 0) = true /\ In n (advecting h).
Proof.
  intros Hr. destruct (@mask_exact ids (valid2 nx ny) (points2 grid nx xs ny ys hy) hs) as [m [E Hm]].
  - intros h r p Hh Hp _ id Hid. destruct (Hr h id Hh Hid) as [H1 H2]. repeat split; auto.
    apply in_flat_map in Hp. destruct Hp as [j [Hj Hp]]. apply in_map_iff in Hp. destruct Hp as [i [Ei Hi]]. inversion Ei.
    apply in_seq in Hi, Hj. cbn. apply andb_true_intro. split; apply Nat.ltb_lt; lia.
  - exists m. split; [exact E|]. intros ix iy n Hy. unfold read2. rewrite Hm.
    assert (Eg : globalY ys (iy + 1) = Z.of_nat (iy + ys)) by (unfold globalY; lia). split.
    + intros [h [p [Hh [Hp [Hs Hn]]]]]. apply in_flat_map in Hp. destruct Hp as [j [Hj Hp]]. apply in_map_iff in Hp. destruct Hp as [i [Ei Hi]].
      inversion Ei. subst. apply in_seq in Hi. split; [lia|]. exists h. rewrite <- Eg. auto.
    + intros [Hx [h [Hh [Hs Hn]]]]. exists h, (xAt grid (ix + 1 + xs), yAt hy (Z.of_nat (iy + ys)), 0). repeat split; auto.
      apply in_flat_map. exists (iy + 1)%nat. split; [apply in_seq; lia|].
      apply in_map_iff. exists (ix + 1)%nat. split; [rewrite Eg; reflexivity|apply in_seq; lia].
Qed.
Theorem c33_shifted_3d ids grid nx xs ny ys nz zs hy hz hs : idsInRange ids hs ->
  exists m, diffusionGrid3 grid nx xs ny ys nz zs hy hz ids hs = Some m /\
  forall ix iy iz n, (iy < ny)%nat -> (iz < nz)%nat -> read3 m ix iy iz n = false <->
    (ix + 1 < nx)%nat /\ exists h, In h hs /\
      isSink h (xAt grid (ix + 1 + xs), yAt hy (Z.of_nat (iy + ys)), zAt hz (Z.of_nat (iz + zs))) = true /\ In n (advecting h).
Proof.
  intros Hr. destruct (@mask_exact ids (valid3 nx ny nz) (points3 grid nx xs ny ys nz zs hy hz) hs) as [m [E Hm]].
  - intros h r p Hh Hp _ id Hid. destruct (Hr h id Hh Hid) as [H1 H2]. repeat split; auto.
    apply in_flat_map in Hp. destruct Hp as [k [Hk Hp]].
    apply in_flat_map in Hp. destruct Hp as [j [Hj Hp]]. apply in_map_iff in Hp. destruct Hp as [i [Ei Hi]]. inversion Ei.
    apply in_seq in Hi, Hj, Hk. cbn. apply andb_true_intro; split; [apply andb_true_intro; split|]; apply Nat.ltb_lt; lia.
  - exists m. split; [exact E|]. intros ix iy iz n Hy Hz. unfold read3. rewrite Hm.
    assert (Eg : globalY ys (iy + 1) = Z.of_nat (iy + ys)) by (unfold globalY; lia).
    assert (Ez : globalZ zs (iz + 1) = Z.of_nat (iz + zs)) by (unfold globalZ; lia). split.
    + intros [h [p [Hh [Hp [Hs Hn]]]]]. apply in_flat_map in Hp. destruct Hp as [k [Hk Hp]].
      apply in_flat_map in Hp. destruct Hp as [j [Hj Hp]]. apply in_map_iff in Hp. destruct Hp as [i [Ei Hi]].
      inversion Ei. subst. apply in_seq in Hi. split; [lia|]. exists h. rewrite <- Eg, <- Ez. auto.
    + intros [Hx [h [Hh [Hs Hn]]]].
      exists h, (xAt grid (ix + 1 + xs), yAt hy (Z.of_nat (iy + ys)), zAt hz (Z.of_nat (iz + zs))). repeat split; auto.
      apply in_flat_map. exists (iz + 1)%nat. split; [apply in_seq; lia|].
      apply in_flat_map. exists (iy + 1)%nat. split; [apply in_seq; lia|].
      apply in_map_iff. exists (ix + 1)%nat. split; [rewrite Eg, Ez; reflexivity|apply in_seq; lia].
Qed.
(** The intended mask is obtained away from the last local column when the sink does not
    depend on x and the diffusing clusters are exactly the first clusters of the network. *)
Theorem c33_intended_partial k grid nx xs ny ys hy hs :
  idsInRange (seq 0 k) hs -> (forall h x x' y z, In h hs -> isSink h (x, y, z) = isSink h (x', y, z)) ->
  exists m, diffusionGrid2 grid nx xs ny ys hy (seq 0 k) hs = Some m /\
  forall ix iy n, (iy < ny)%nat -> (ix + 1 < nx)%nat ->
    read2 m ix iy n = false <-> offAt hs (seq 0 k) (xAt grid (ix + xs), yAt hy (Z.of_nat (iy + ys)), 0) n.
Proof.
  intros Hr Hx. destruct (@c33_shifted_2d (seq 0 k) grid nx xs ny ys hy hs Hr) as [m [E Hm]].
  exists m. split; [exact E|]. intros ix iy n Hy Hi. rewrite Hm by exact Hy. unfold offAt. split.
  - intros [_ [h [Hh [Hs Hn]]]]. exists h, n. rewrite (Hx h _ (xAt grid (ix + 1 + xs))) by exact Hh. repeat split; auto.
    destruct (Hr h n Hh Hn) as [_ H2]. rewrite seq_length in H2. rewrite nth_error_nth' with (d := 0%nat) by (rewrite seq_length; auto).
    rewrite seq_nth by auto. reflexivity.
  - intros [h [id [Hh [Hs [Hn Hid]]]]]. split; [exact Hi|]. exists h. rewrite (Hx h _ (xAt grid (ix + xs))) by exact Hh.
    repeat split; auto. assert (H2 : (n < length (seq 0 k))%nat) by (apply nth_error_Some; congruence).
    apply nth_error_nth with (d := 0%nat) in Hn. rewrite seq_length in H2. rewrite seq_nth in Hn by auto. cbn in Hn. subst. exact Hid.
Qed.

(** A grain boundary as the handlers declare it (XGBAdvectionHandler.h:96,
    YGBAdvectionHandler.h:96). *)
Definition yGB (l : list nat) (location : R) : sinkHandler :=
  SinkHandler l (fun p => let '(_, y, _) := p in if Rlt_dec (Rabs (location - y)) 0.001 then true else false).
Definition xGB (l : list nat) (location : R) : sinkHandler :=
  SinkHandler l (fun p => let '(x, _, _) := p in if Rlt_dec (Rabs (location - x)) 0.001 then true else false).
Lemma xGB_sink l y : isSink (xGB l y) (y, 0, 0) = true.
Proof. cbn. rewrite Rminus_diag_eq, Rabs_R0 by reflexivity. destruct (Rlt_dec 0 0.001); [reflexivity|lra]. Qed.
Lemma xGB_not_sink l y x : 1 <= Rabs (y - x) -> isSink (xGB l y) (x, 0, 0) = false.
Proof. intros. cbn. destruct (Rlt_dec (Rabs (y - x)) 0.001); [lra|reflexivity]. Qed.
Lemma yGB_sink l x y z : isSink (yGB l y) (x, y, z) = true.
Proof. cbn. rewrite Rminus_diag_eq, Rabs_R0 by reflexivity. destruct (Rlt_dec 0 0.001); [reflexivity|lra]. Qed.
Example intended_ok : idsInRange (seq 0 7) [yGB [0%nat; 1%nat] 3] /\
  forall h x x' y z, In h [yGB [0%nat; 1%nat] 3] -> isSink h (x, y, z) = isSink h (x', y, z).
Proof.
  split.
  - intros h id [<-|[]] [<-|[<-|[]]]; cbn; lia.
  - intros h x x' y z [<-|[]]. reflexivity.
Qed.

(** The point: a grain boundary across x at the position of point 3 of a unit grid switches
    off the point 2 and leaves point 3 on. *)
Definition unitGrid (i : nat) : R := INR i.
Lemma unit_x i : xAt unitGrid i = INR i - 1 / 2.
Proof. unfold xAt, unitGrid. rewrite plus_INR. cbn [INR]. lra. Qed.
Theorem c33_point_refuted :
  let hs := [xGB [0%nat] (5 / 2)] in let ids := [0%nat] in
  exists m, diffusionGrid1 unitGrid 6 0 ids hs = Some m /\
    offAt hs ids (xAt unitGrid 3, 0, 0) 0 /\ read1 m 3 0 = true /\
    ~ offAt hs ids (xAt unitGrid 2, 0, 0) 0 /\ read1 m 2 0 = false.
Proof.
  intros hs ids. destruct (@c33_shifted_1d ids unitGrid 6 0 hs) as [m [E Hm]].
  - intros h id [<-|[]] [<-|[]]. cbn. lia.
  - exists m. split; [exact E|].
    assert (E3 : xAt unitGrid 3 = 5 / 2) by (rewrite unit_x; cbn [INR]; lra).
    assert (E4 : xAt unitGrid 4 = 7 / 2) by (rewrite unit_x; cbn [INR]; lra).
    assert (E2 : xAt unitGrid 2 = 3 / 2) by (rewrite unit_x; cbn [INR]; lra).
    assert (N4 : isSink (xGB [0%nat] (5 / 2)) (xAt unitGrid 4, 0, 0) = false)
      by (apply xGB_not_sink; rewrite E4, Rabs_left1 by lra; lra).
    assert (N2 : isSink (xGB [0%nat] (5 / 2)) (xAt unitGrid 2, 0, 0) = false)
      by (apply xGB_not_sink; rewrite E2, Rabs_right by lra; lra).
    assert (S3 : isSink (xGB [0%nat] (5 / 2)) (xAt unitGrid 3, 0, 0) = true) by (rewrite E3; apply xGB_sink).
    split; [|split; [|split]].
    + exists (xGB [0%nat] (5 / 2)), 0%nat. cbn [In advecting xGB nth_error ids]. repeat split; auto. left; reflexivity.
    + destruct (read1 m 3 0) eqn:Er; [reflexivity|]. apply Hm in Er. destruct Er as [_ [h [[<-|[]] [Hs _]]]].
      cbn [Nat.add] in Hs. rewrite N4 in Hs. discriminate.
    + intros [h [id [[<-|[]] [Hs _]]]]. rewrite N2 in Hs. discriminate.
    + apply Hm. split; [lia|]. exists (xGB [0%nat] (5 / 2)). cbn [Nat.add]. repeat split; auto; left; reflexivity.
Qed.
(** The last local column: on a y grain boundary it keeps diffusing, so the mask depends on
    the distribution over the processes. *)
Theorem c33_last_column_refuted (grid : nat -> R) (nx xs : nat) : (1 <= nx)%nat ->
  let hs := [yGB [0%nat] 3] in
  exists m, diffusionGrid2 grid nx xs 6 0 1 [0%nat] hs = Some m /\
    offAt hs [0%nat] (xAt grid (nx - 1 + xs), yAt 1 3, 0) 0 /\ read2 m (nx - 1) 3 0 = true /\
    ((2 <= nx)%nat -> read2 m 0 3 0 = false).
Proof.
  intros Hn hs. destruct (@c33_shifted_2d [0%nat] grid nx xs 6 0 1 hs) as [m [E Hm]].
  - intros h id [<-|[]] [<-|[]]. cbn. lia.
  - exists m. split; [exact E|].
    assert (E3 : yAt 1 (Z.of_nat (3 + 0)) = 3) by (unfold yAt; cbn; lra). split; [|split].
    + exists (yGB [0%nat] 3), 0%nat. replace (yAt 1 3) with 3 by (unfold yAt; lra). rewrite yGB_sink. cbn. auto.
    + destruct (read2 m (nx - 1) 3 0) eqn:Er; [reflexivity|]. apply Hm in Er; [|lia]. destruct Er as [H _]. lia.
    + intros H2. apply Hm; [lia|]. split; [lia|]. exists (yGB [0%nat] 3). rewrite E3, yGB_sink. cbn. auto.
Qed.
(** The cluster: the entry set is numbered by the id of the cluster. If clusters 0 and 2
    diffuse and cluster 2 is on its sink, the write is outside of the row. *)
Theorem c33_id_refuted : diffusionGrid1 unitGrid 6 0 [0%nat; 2%nat] [xGB [2%nat] (5 / 2)] = None.
Proof.
  unfold diffusionGrid1. apply (@mask_fails _ _ _ _ (xGB [2%nat] (5 / 2)) [3%nat] (xAt unitGrid 3, 0, 0) 2).
  - left; reflexivity.
  - cbn. auto 10.
  - replace (xAt unitGrid 3) with (5 / 2) by (rewrite unit_x; cbn [INR]; lra). apply xGB_sink.
  - left; reflexivity.
  - cbn. intros [_ [_ H]]. lia.
Qed.
(** ... and if clusters 1, 2, 3 diffuse and cluster 1 is on its sink, cluster 2 (the entry
    of position 1) is switched off instead. *)
Theorem c33_wrong_cluster_refuted :
  let hs := [xGB [1%nat] (5 / 2)] in let ids := [1%nat; 2%nat; 3%nat] in
  exists m, diffusionGrid1 unitGrid 6 0 ids hs = Some m /\ nth_error ids 1 = Some 2%nat /\ read1 m 2 1 = false /\ read1 m 2 0 = true.
Proof.
  intros hs ids. destruct (@c33_shifted_1d ids unitGrid 6 0 hs) as [m [E Hm]].
  - intros h id [<-|[]] [<-|[]]. cbn. lia.
  - exists m. split; [exact E|]. split; [reflexivity|]. split.
    + apply Hm. split; [lia|]. exists (xGB [1%nat] (5 / 2)). cbn [Nat.add].
      replace (xAt unitGrid 3) with (5 / 2) by (rewrite unit_x; cbn [INR]; lra). rewrite xGB_sink. cbn. auto.
    + destruct (read1 m 2 0) eqn:Er; [reflexivity|]. apply Hm in Er. destruct Er as [_ [h [[<-|[]] [_ [H|[]]]]]]. discriminate.
Qed.
(** A cluster which advects but does not diffuse stops the run. *)
Theorem c33_not_diffusing ids valid pts hs h r p id :
  In h hs -> In (r, p) pts -> isSink h p = true -> In id (advecting h) -> ~ In id ids -> maskAll ids valid pts hs = None.
Proof. intros. eapply mask_fails; eauto. tauto. Qed.
Example not_diffusing_ok : maskAll [0%nat] (fun _ => true) [([0%nat], (0, 0, 0))] [SinkHandler [5%nat] (fun _ => true)] = None.
Proof. reflexivity. Qed.

(** The mask of the surface advection: positions are measured from the origin of the grid
    instead of the surface, so the sink is looked for one cell too far left, and a sink in
    the last ghost cell is written outside of the array. *)
Theorem c33_advection_grid_refuted :
  let ids := [0%nat] in
  (exists m, advectionGrid unitGrid 6 0 1 0 1 0 0 0 ids [xGB ids (5 / 2)] = Some m /\
     read3 m 2 0 0 0 = false /\ read3 m 3 0 0 0 = true /\ isSink (xGB ids (5 / 2)) (xAt unitGrid 3, 0, 0) = true) /\
  advectionGrid unitGrid 6 0 1 0 1 0 0 0 ids [xGB ids (15 / 2)] = None.
Proof.
  intros ids.
  assert (Ex : forall i, (i < 7)%nat -> xAdv unitGrid 6 0 i = INR i + 1 / 2).
  { intros i Hi. unfold xAdv. destruct (Nat.eqb_spec (i + 0) (6 + 1)); [lia|]. unfold unitGrid. rewrite !plus_INR. cbn [INR]. lra. }
  split.
  - destruct (@mask_exact ids (valid3 6 1 1) (pointsAdv unitGrid 6 0 1 0 1 0 0 0) [xGB ids (5 / 2)]) as [m [E Hm]].
    + intros h r p [<-|[]] Hp Hs id [<-|[]]. split; [left; reflexivity|]. split; [|cbn; lia].
      apply in_flat_map in Hp. destruct Hp as [k [Hk Hp]]. apply in_flat_map in Hp. destruct Hp as [j [Hj Hp]].
      apply in_map_iff in Hp. destruct Hp as [i [Ei Hi]]. apply in_seq in Hi, Hj, Hk. inversion Ei. subst r p.
      assert (i <> 7)%nat.
      { intros ->. cbn [isSink xGB] in Hs. unfold xAdv in Hs. cbn [Nat.add Nat.eqb Nat.sub] in Hs. unfold unitGrid in Hs. cbn [INR] in Hs.
        destruct (Rlt_dec _ _) as [H|]; [|discriminate]. rewrite Rabs_left1 in H by lra. lra. }
      cbn [valid3]. apply andb_true_intro; split; [apply andb_true_intro; split|]; apply Nat.ltb_lt; lia.
    + exists m. split; [exact E|]. unfold read3. split; [|split].
      * apply Hm. exists (xGB ids (5 / 2)), (5 / 2, 0 * IZR (globalY 0 1), 0 * IZR (globalZ 0 1)).
        split; [left; reflexivity|]. split; [|split; [|left; reflexivity]].
        -- unfold pointsAdv. apply in_flat_map. exists 1%nat. split; [cbn; auto|]. apply in_flat_map. exists 1%nat. split; [cbn; auto|].
           apply in_map_iff. exists 2%nat. split; [|cbn; auto]. rewrite Ex by lia. unfold yAt, zAt. cbn [INR Nat.add].
           replace (1 + 1 + 1 / 2) with (5 / 2) by lra. reflexivity.
        -- rewrite !Rmult_0_l. apply xGB_sink.
      * destruct (m [0 + 1; 0 + 1; 3 + 1]%nat 0%nat) eqn:Er; [reflexivity|]. apply Hm in Er.
        destruct Er as [h [p [[<-|[]] [Hp [Hs _]]]]]. exfalso.
        apply in_flat_map in Hp. destruct Hp as [k [Hk Hp]]. apply in_flat_map in Hp. destruct Hp as [j [Hj Hp]].
        apply in_map_iff in Hp. destruct Hp as [i [Ei Hi]]. inversion Ei. assert (i = 3)%nat by lia. subst. 
        cbn [isSink xGB] in Hs. rewrite Ex in Hs by lia. cbn [INR] in Hs. destruct (Rlt_dec _ _) as [H9|]; [|discriminate].
        rewrite Rabs_left1 in H9 by lra. lra.
      * replace (xAt unitGrid 3) with (5 / 2) by (rewrite unit_x; cbn [INR]; lra). apply xGB_sink.
  - unfold advectionGrid. apply (@mask_fails _ _ _ _ (xGB ids (15 / 2)) [0; 0; 7 + 1]%nat (xAdv unitGrid 6 0 7, yAt 0 (globalY 0 0), zAt 0 (globalZ 0 0)) 0).
    + left; reflexivity.
    + unfold pointsAdv. apply in_flat_map. exists 0%nat. split; [cbn; auto|]. apply in_flat_map. exists 0%nat. split; [cbn; auto|].
      apply in_map_iff. exists 7%nat. split; [reflexivity|cbn; auto 10].
    + unfold yAt, zAt. rewrite !Rmult_0_l. unfold xAdv. cbn [Nat.add Nat.eqb Nat.sub]. unfold unitGrid.
      replace (INR 7 + (INR 7 - INR 6) / 2) with (15 / 2) by (cbn [INR]; lra). apply xGB_sink.
    + left; reflexivity.
    + cbn. intros [_ [H _]]. discriminate.
Qed.
Print Assumptions c33_no_sink.
Print Assumptions c33_shifted_1d.
Print Assumptions c33_shifted_2d.
Print Assumptions c33_shifted_3d.
Print Assumptions c33_intended_partial.
Print Assumptions c33_point_refuted.
Print Assumptions c33_last_column_refuted.
Print Assumptions c33_id_refuted.
Print Assumptions c33_wrong_cluster_refuted.
Print Assumptions c33_not_diffusing.
Print Assumptions c33_advection_grid_refuted.
