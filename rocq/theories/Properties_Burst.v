(** Property C20: bubble bursting. *)
From Verif Require Import BurstProofs.
Open Scope R_scope.

(** Networks whose groups are all mixed clusters, zero moments: all gas leaves and
    is reported once; every quantity of the vacancy and interstitial numbers which
    vanishes for pure gas keeps its total. *)
Theorem c20_burst_partial : forall factor ng findV cs s,
  network ng findV cs -> flat cs (sol s) ->
  exists s', updateBurstingConcs factor findV cs s = Some s' /\
    (forall g, (g < ng)%nat -> burst s' g = burst s g + factor * total cs (amount g) (sol s) /\ total cs (amount g) (sol s') = 0) /\
    (forall h, h 0%Z 0%Z = 0 -> total cs (VI ng h) (sol s') = total cs (VI ng h) (sol s)) /\
    (forall i c, nth_error cs i = Some c -> gasHolding ng c -> sol s' i = 0) /\
    (forall i c, nth_error cs i = Some c -> interstitialCluster ng c -> sol s' i = sol s i).
Proof.
  intros factor ng findV cs s NET HF.
  destruct (@burstLoop_ok factor findV cs ng NET cs 0 s HF eq_refl) as (s' & E & HF' & A & B & D & G).
  exists s'. split; [exact E|].
  assert (Z : forall g, (g < ng)%nat -> Rsum (seq 0 (length cs)) (fun j => sol s' j * weight cs (amount g) j) = 0).
  { intros g Hg. apply Rsum_zero. intros j Hj. apply in_seq in Hj.
    destruct (nth_error cs j) as [c|] eqn:Ej; [|apply nth_error_None in Ej; lia].
    destruct (@net_at findV cs ng NET j c Ej) as [_ [[v HV]|[HI|HG]]].
    - rewrite (@weight_shape cs _ j c _ _ _ Ej (vac_shape HV)). unfold amount. rewrite nth_shape.
      destruct (Nat.eqb_spec g ng); [lia|]. ring.
    - destruct (int_shape HI) as (a & _ & HS). rewrite (@weight_shape cs _ j c _ _ _ Ej HS). unfold amount. rewrite nth_shape.
      destruct (Nat.eqb_spec g (S ng)); [lia|]. ring.
    - rewrite (D j c Ej); [cbn; ring|]. destruct HG as [HG|[HM _]]; [left|right]; assumption. }
  split; [|split; [|split]].
  - intros g Hg. rewrite !total_flat by assumption. split; [|apply Z; exact Hg].
    specialize (B g Hg). rewrite Z in B by exact Hg. lra.
  - intros h H0. rewrite !total_flat by assumption. apply A. exact H0.
  - intros i c Hi Hc. rewrite (D i c Hi Hc). reflexivity.
  - exact G.
Qed.
Print Assumptions c20_burst_partial.

(** In particular the vacancies, and the number of objects with [v] vacancies. *)
Theorem c20_vacancies_partial : forall factor ng findV cs s v,
  network ng findV cs -> flat cs (sol s) -> (0 < v)%Z ->
  exists s', updateBurstingConcs factor findV cs s = Some s' /\
    total cs (amount ng) (sol s') = total cs (amount ng) (sol s) /\
    total cs (fun x => if (nth ng x 0 =? v)%Z then 1 else 0) (sol s') = total cs (fun x => if (nth ng x 0 =? v)%Z then 1 else 0) (sol s).
Proof.
  intros factor ng findV cs s v NET HF Hv. destruct (@c20_burst_partial factor ng findV cs s NET HF) as (s' & E & _ & A & _).
  exists s'. split; [exact E|]. split.
  - apply (A (fun v _ => IZR v)). reflexivity.
  - apply (A (fun w _ => if (w =? v)%Z then 1 else 0)). destruct (Z.eqb_spec 0 v); [lia|reflexivity].
Qed.
Print Assumptions c20_vacancies_partial.

(** Ungrouped networks: no moments at all. *)
Theorem c20_burst_ungrouped : forall factor ng findV cs s,
  network ng findV cs -> Forall (fun c => moms c = []) cs ->
  exists s', updateBurstingConcs factor findV cs s = Some s' /\
    (forall g, (g < ng)%nat -> burst s' g = burst s g + factor * total cs (amount g) (sol s) /\ total cs (amount g) (sol s') = 0) /\
    (forall h, h 0%Z 0%Z = 0 -> total cs (VI ng h) (sol s') = total cs (VI ng h) (sol s)).
Proof.
  intros factor ng findV cs s NET HU. destruct (@c20_burst_partial factor ng findV cs s NET) as (s' & E & A & B & _).
  - intros c m Hc Hm. rewrite Forall_forall in HU. rewrite (HU c Hc) in Hm. destruct Hm.
  - exists s'. auto.
Qed.
Print Assumptions c20_burst_ungrouped.

(** One gas: V_1, V_2, I_1, He_1, He_1V_1, He[2,4)V[1,3). *)
Definition exNet : list cl :=
  [Cl [(0, 1)] (1, 2) (0, 1) []; Cl [(0, 1)] (2, 3) (0, 1) []; Cl [(0, 1)] (0, 1) (1, 2) []; Cl [(1, 2)] (0, 1) (0, 1) [];
   Cl [(1, 2)] (1, 2) (0, 1) []; Cl [(2, 4)] (1, 3) (0, 1) [6%nat; 7%nat]]%Z.
Definition exFindV (v : Z) : option nat := if (v =? 1)%Z then Some 0%nat else if (v =? 2)%Z then Some 1%nat else None.
Definition exSol (k : nat) : R := match k with 0%nat => 1 | 1%nat => 2 | 2%nat => 3 | 3%nat => 4 | 4%nat => 5 | 5%nat => 6 | _ => 0 end.
Example c20_example_network : network 1 exFindV exNet /\ flat exNet exSol.
Proof.
  split.
  - unfold network, exNet. repeat apply Forall_cons; try apply Forall_nil; (split; [repeat constructor; cbn; lia|]).
    + left. exists 1%Z. repeat split; lia.
    + left. exists 2%Z. repeat split; lia.
    + right. left. exists 1%Z. repeat split; lia.
    + right. right. left. exists 0%nat, 1%Z. repeat split; lia.
    + right. right. right. split.
      * repeat split; cbn; try lia; repeat constructor; cbn; lia.
      * cbn. intros v Hv. replace v with 1%Z by lia. exists 0%nat. eexists. repeat split.
    + right. right. right. split.
      * repeat split; cbn; try lia; repeat constructor; cbn; lia.
      * cbn. intros v Hv. assert (v = 1 \/ v = 2)%Z as [->| ->] by lia; [exists 0%nat|exists 1%nat]; eexists; repeat split.
  - intros c m Hc Hm. cbn in Hc. intuition (subst; cbn in Hm; try tauto). destruct Hm as [<-|[<-|[]]]; reflexivity.
Qed.
(** 4 + 5 + 2*6*(2+3) = 69 helium atoms leave; V_1 gets 5 + 2*6, V_2 gets 2*6. *)
Example c20_example : exists s', updateBurstingConcs 1 exFindV exNet (St exSol (fun _ => 0)) = Some s' /\
  burst s' 0%nat = 69 /\ sol s' 0%nat = 18 /\ sol s' 1%nat = 14 /\ sol s' 2%nat = 3 /\ sol s' 5%nat = 0.
Proof. eexists. split; [reflexivity|]. cbv -[IZR Rplus Rmult Rdiv Ropp Rminus Rinv]. repeat split; lra. Qed.

(** Moments are ignored: He[1,3)V_1 with a non-zero moment. *)
Definition momNet : list cl := [Cl [(0, 1)] (1, 2) (0, 1) []; Cl [(1, 3)] (1, 2) (0, 1) [2%nat]]%Z.
Theorem c20_moment_refuted : exists ng findV cs s s',
  network ng findV cs /\ updateBurstingConcs 1 findV cs s = Some s' /\ burst s' 0%nat <> burst s 0%nat + 1 * total cs (amount 0) (sol s).
Proof.
  exists 1%nat, exFindV, momNet, (St (fun k => match k with 1%nat => 1 | 2%nat => 1 | _ => 0 end) (fun _ => 0)). eexists. split; [|split; [reflexivity|]].
  - unfold network, momNet. repeat apply Forall_cons; try apply Forall_nil; (split; [repeat constructor; cbn; lia|]).
    + left. exists 1%Z. repeat split; lia.
    + right. right. right. split.
      * repeat split; cbn; try lia; repeat constructor; cbn; lia.
      * cbn. intros v Hv. replace v with 1%Z by lia. exists 0%nat. eexists. repeat split.
  - cbv -[IZR Rplus Rmult Rdiv Ropp Rminus Rinv]. lra.
Qed.
Print Assumptions c20_moment_refuted.

(** A group of pure vacancy clusters loses all its vacancies. *)
Theorem c20_vacancy_group_refuted : forall factor c1 rest ng a b findV s,
  let c := Cl (repeat (one 0) ng) (a, b) (one 0) [] in
  (0 < a)%Z -> (a + 1 < b)%Z -> (forall v, (a <= v < b)%Z -> findV v = Some (length (c1 : list cl))) ->
  exists s', burstStep factor findV (c1 ++ c :: rest) (length c1) c s = Some s' /\ sol s' (length c1) = 0.
Proof.
  intros factor c1 rest ng a b findV s c Ha Hb HV.
  assert (NS : isSimplex c = false).
  { unfold isSimplex, axes, c. cbn [gasR vacR intR]. rewrite forallb_app. cbn [forallb]. unfold len at 2. cbn [fst snd].
    destruct (Z.eqb_spec (b - a) 1); [lia|]. rewrite andb_false_l, andb_false_r. reflexivity. }
  unfold burstStep. rewrite NS. cbv zeta.
  assert (G : forall vs f, (forall v, In v vs -> (a <= v < b)%Z) -> exists f',
    transferAll findV (c1 ++ c :: rest) (length c1) (IZR (volume c) / IZR (len (vacR c))) vs f = Some f').
  { induction vs as [|v vs IH]; intros f Hvs; [eexists; reflexivity|]. cbn [transferAll]. unfold transfer.
    rewrite HV by (apply Hvs; left; reflexivity). apply IH. intros; apply Hvs; right; assumption. }
  destruct (G (inter (vacR c)) (sol (releaseGroup factor c (length c1) s))) as (f' & E).
  { intros v Hv. apply inter_In in Hv. exact Hv. }
  rewrite E. eexists. split; [reflexivity|]. cbn. unfold clear. apply upd_same.
Qed.
Print Assumptions c20_vacancy_group_refuted.
Example c20_vacancy_group_example : exists s',
  updateBurstingConcs 1 (fun _ => Some 0%nat) [Cl [(0, 1)] (3, 5) (0, 1) []]%Z (St (fun _ => 1) (fun _ => 0)) = Some s' /\
  total [Cl [(0, 1)] (3, 5) (0, 1) []]%Z (amount 1) (fun _ => 1) = 7 /\
  total [Cl [(0, 1)] (3, 5) (0, 1) []]%Z (amount 1) (sol s') = 0.
Proof.
  eexists. split; [reflexivity|]. cbv -[IZR Rplus Rmult Rdiv Ropp Rminus Rinv]. split; lra.
Qed.

(** A group of pure interstitial clusters looks up the empty composition: the
    invalid cluster is then read and written. *)
Theorem c20_interstitial_group_refuted : forall factor findV cs ng a b i s,
  findV 0%Z = None -> (a + 1 < b)%Z ->
  burstStep factor findV cs i (Cl (repeat (one 0) ng) (one 0) (a, b) []) s = None.
Proof.
  intros factor findV cs ng a b i s H0 Hb. unfold burstStep.
  replace (isSimplex _) with false.
  - cbn [vacR sol releaseGroup]. rewrite inter_one. cbn [transferAll]. unfold transfer. rewrite H0. reflexivity.
  - symmetry. unfold isSimplex, axes. cbn [gasR vacR intR]. rewrite forallb_app. cbn [forallb]. unfold len at 3. cbn [fst snd].
    destruct (Z.eqb_spec (b - a) 1); [lia|]. rewrite !andb_false_l, !andb_false_r. reflexivity.
Qed.
Print Assumptions c20_interstitial_group_refuted.
