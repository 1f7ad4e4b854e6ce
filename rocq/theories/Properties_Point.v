(** C88: the tables of a run at one point hold what their headings say. *)
From Coq Require Import ZArith Reals List Bool Lia Lra.
From Verif Require Import Sums RatesModel TotalsModel TotalsProofs Properties_Totals PointModel.
Import ListNotations.
Set Implicit Arguments.
Open Scope R_scope.

(** ** The columns *)
(** What a heading says. *)
Inductive names : heading -> Z * Z * Z -> Prop :=
| NI n : (0 < n)%Z -> names (HI n) (0, 0, n)%Z
| NV n : (0 < n)%Z -> names (HV n) (0, n, 0)%Z
| NXe n : (0 < n)%Z -> names (HXe n) (n, 0, 0)%Z
| NXeV x v : (0 < x)%Z -> (0 < v)%Z -> names (HXeV x v) (x, v, 0)%Z.
(** Different clusters have different headings. *)
Lemma names_inj h c c' : names h c -> names h c' -> c = c'.
Proof. intros H H'. destruct H; inversion H'; reflexivity. Qed.
(** The clusters of a fuel network: interstitials, or xenon with vacancies. *)
Definition fuel (cluster : Z * Z * Z -> option nat) : Prop :=
  forall x v i id, cluster (x, v, i) = Some id -> (0 <= x)%Z /\ (0 <= v)%Z /\ ((0 < i)%Z /\ x = 0%Z /\ v = 0%Z \/ i = 0%Z /\ (0 < x + v)%Z).
(** A line of the file: a composition and further numbers. *)
Definition lineOf (c : Z * Z * Z) (more : list R) : fline := match c with (x, v, i) => Toks (IZR x :: IZR v :: IZR i :: more) end.
Definition counts (c : Z * Z * Z) : Prop := match c with (x, v, i) => (0 <= x /\ 0 <= v /\ 0 <= i)%Z end.
(** What ends the list of clusters: the end of the file, an empty line, or the line "Reactions" (not as first line). *)
Inductive ending : list fline -> Prop :=
| EndOfFile : ending []
| EmptyLine r : ending (Toks [] :: r)
| ReactionsLine r : ending (Marker :: r).
Lemma unsigned_IZR z : (0 <= z)%Z -> unsigned (IZR z) = Some z.
Proof.
  intros H. unfold unsigned. apply IZR_le in H. destruct (Rle_dec 0 (IZR z)); [|contradiction]. f_equal. symmetry. unfold Int_part. assert (up (IZR z) = z + 1)%Z as -> by (symmetry; apply tech_up; rewrite plus_IZR; lra). lia.
Qed.
Lemma compAt_line x v i more : (0 <= x)%Z -> (0 <= v)%Z -> (0 <= i)%Z -> compAt (IZR x :: IZR v :: IZR i :: more) 0 = Some (x, v, i).
Proof. intros. unfold compAt. cbn [nth_error Nat.add]. rewrite !unsigned_IZR by assumption. reflexivity. Qed.
Lemma label_names cluster c id : fuel cluster -> cluster c = Some id -> names (label c) c.
Proof.
  intros F H. destruct c as ((x, v), i). destruct (F _ _ _ _ H) as (Hx & Hv & [(Hi & -> & ->)|(-> & P)]); unfold label.
  - destruct (Z.ltb_spec 0 i); [constructor; assumption|lia].
  - cbn [Z.ltb Z.compare]. destruct (Z.ltb_spec 0 v), (Z.eqb_spec x 0), (Z.ltb_spec 0 x), (Z.eqb_spec v 0); cbn [andb]; try lia; subst; constructor; assumption.
Qed.
Lemma loop_nil cluster r : columnLoop cluster [] r = Some [].
Proof. destruct r; reflexivity. Qed.
Lemma loop_cons cluster x l rest c : compAt (x :: l) 0 = Some c -> columnLoop cluster (x :: l) rest =
  let here := match cluster c with Some id => [(label c, id)] | None => [] end in
  match rest with
  | [] => Some here
  | Marker :: _ => Some here
  | Toks l :: r => match columnLoop cluster l r with Some q => Some (here ++ q) | None => None end
  end.
Proof. intros H. destruct rest; cbn [columnLoop]; rewrite H; reflexivity. Qed.
Lemma loop_end cluster x l rest c : compAt (x :: l) 0 = Some c -> ending rest -> columnLoop cluster (x :: l) rest = Some (match cluster c with Some id => [(label c, id)] | None => [] end).
Proof. intros H E. rewrite (@loop_cons cluster x l rest c H). cbv zeta. destruct E; [reflexivity| |reflexivity]. rewrite loop_nil, app_nil_r. reflexivity. Qed.
(** The columns are the clusters of the file which are in the network, in the order of the file; the headings are their names. *)
Theorem c88_columns cluster (file : list ((Z * Z * Z) * list R)) rest : fuel cluster -> Forall (fun l => counts (fst l)) file -> ending rest -> (file = [] -> forall r, rest <> Marker :: r) ->
  exists cols, columns cluster (map (fun l => lineOf (fst l) (snd l)) file ++ rest) = Some cols /\
    Forall2 (fun c col => names (fst col) c /\ cluster c = Some (snd col))
      (filter (fun c => match cluster c with Some _ => true | None => false end) (map fst file)) cols.
Proof.
  intros F C E NM. destruct file as [|(c0, m0) file].
  - exists []. split; [|constructor]. cbn [map app]. destruct E; [reflexivity|apply loop_nil|]. exfalso. apply (NM eq_refl r). reflexivity.
  - cbn [map app columns]. clear NM. revert c0 m0 C. induction file as [|(c', m') file IH]; intros ((x, v), i) m C; apply Forall_cons_iff in C; destruct C as ((Cx & Cv & Ci) & C); cbn [fst snd lineOf tokens].
    + cbn [map app]. rewrite (@loop_end cluster _ _ _ _ (@compAt_line x v i m Cx Cv Ci) E). cbn [filter].
      destruct (cluster (x, v, i)) as [id|] eqn:Ec.
      * exists [(label (x, v, i), id)]. split; [reflexivity|]. constructor; [|constructor]. split; [apply (@label_names cluster _ id F Ec)|exact Ec].
      * exists []. split; [reflexivity|constructor].
    + destruct (IH c' m' C) as (cols & H1 & H2). cbn [map app]. rewrite (@loop_cons cluster _ _ _ _ (@compAt_line x v i m Cx Cv Ci)).
      destruct c' as ((x', v'), i'). cbn [fst snd lineOf tokens] in *. rewrite H1. cbn [filter]. cbn [map filter fst] in H2.
      destruct (cluster (x, v, i)) as [id|] eqn:Ec.
      * exists ((label (x, v, i), id) :: cols). split; [reflexivity|]. constructor; [|exact H2]. split; [apply (@label_names cluster _ id F Ec)|exact Ec].
      * exists cols. split; [reflexivity|exact H2].
Qed.
(** V_1, Xe_1, Xe_1V_2 (not in the network), I_1. *)
Definition exNet (c : Z * Z * Z) : option nat :=
  match c with (0, 1, 0)%Z => Some 1%nat | (1, 0, 0)%Z => Some 2%nat | (0, 0, 1)%Z => Some 0%nat | _ => None end.
Example c88_columns_ok : fuel exNet /\
  columns exNet (map (fun l => lineOf (fst l) (snd l)) [((0, 1, 0)%Z, [3]); ((1, 0, 0)%Z, [4; 5]); ((1, 2, 0)%Z, []); ((0, 0, 1)%Z, [1])] ++ [Marker; Toks [1]]) =
    Some [(HV 1, 1%nat); (HXe 1, 2%nat); (HI 1, 0%nat)].
Proof.
  split.
  - intros x v i id H. unfold exNet in H. destruct x as [|[x|x|]|], v as [|[v|v|]|], i as [|[i|i|]|]; try discriminate H; lia.
  - cbn [map app fst snd lineOf columns tokens columnLoop]. rewrite !compAt_line by lia. reflexivity.
Qed.
(** "Reactions" as first line: a token which does not exist is used. *)
Theorem c88_marker_refuted cluster rest : columns cluster (Marker :: rest) = None.
Proof. destruct rest; reflexivity. Qed.

(** ** The rows *)
(** The bubbles: their volumes times their concentrations, and their xenon per vacancy; at least two xenon. *)
Definition upto (r : Z * Z) : list Z := map (fun n => fst r + Z.of_nat n)%Z (seq 0 (Z.to_nat (snd r - fst r))).
Definition bubbles (cs : list tcl) (f : nat -> R) : list (R * R) :=
  flat_map (fun i => let c := nth i cs tdummy in
    if (0 <? fst (axis c 1))%Z then
      flat_map (fun x => if (2 <=? x)%Z then map (fun v => (f i * radius c ^ 3, IZR x / IZR v)) (upto (axis c 1)) else []) (upto (axis c 0))
    else []) (seq 0 (length cs)).
Definition weight (l : list (R * R)) : R := Rsum l fst.
Definition mean (l : list (R * R)) (m : R) : Prop := weight l * m = Rsum l (fun b => fst b * snd b).
Definition variance (l : list (R * R)) (m s : R) : Prop := weight l * s = Rsum l (fun b => fst b * (snd b - m) ^ 2).
Lemma Rsum_flat A B (g : A -> list B) l h : Rsum (flat_map g l) h = Rsum l (fun a => Rsum (g a) h).
Proof. induction l as [|a l IH]; [reflexivity|]. cbn [flat_map Rsum]. rewrite Rsum_app, IH. reflexivity. Qed.
Lemma Rsum_maps A B (g : A -> B) l h : Rsum (map g l) h = Rsum l (fun a => h (g a)).
Proof. induction l as [|a l IH]; [reflexivity|]. cbn [map Rsum]. rewrite IH. reflexivity. Qed.
Lemma bubbles_sum cs f h : Rsum (bubbles cs f) h = reduce cs (fun i c => if (0 <? fst (axis c 1))%Z then
    Rsum (inter (axis c 0)) (fun x => if (2 <=? x)%Z then Rsum (inter (axis c 1)) (fun v => h (f i * radius c ^ 3, IZR x / IZR v)) else 0) else 0).
Proof.
  unfold bubbles, reduce. rewrite Rsum_flat. apply Rsum_ext. intros i _. cbv zeta. destruct (0 <? _)%Z; [|reflexivity]. rewrite Rsum_flat. apply Rsum_ext. intros x _.
  destruct (2 <=? x)%Z; [|reflexivity]. rewrite Rsum_maps. reflexivity.
Qed.
Lemma numerator_bubbles cs f : ratioNumerator cs f 1 0 2 = Rsum (bubbles cs f) (fun b => fst b * snd b).
Proof.
  rewrite bubbles_sum. unfold ratioNumerator, reduce. apply Rsum_ext. intros i _. cbv beta. destruct (0 <? _)%Z; [|reflexivity]. apply Rsum_ext. intros x _.
  destruct (2 <=? x)%Z; [|reflexivity]. apply Rsum_ext. intros v _. cbn [fst snd]. unfold Rdiv. ring.
Qed.
Lemma variance_bubbles cs f m : varianceNumerator cs f 1 0 m 2 = Rsum (bubbles cs f) (fun b => fst b * (snd b - m) ^ 2).
Proof.
  rewrite bubbles_sum. unfold varianceNumerator, reduce. apply Rsum_ext. intros i _. cbv beta. destruct (0 <? _)%Z; [|reflexivity]. apply Rsum_ext. intros x _.
  destruct (2 <=? x)%Z; [|reflexivity]. apply Rsum_ext. intros v _. cbn [fst snd]. ring.
Qed.
(** Clusters of a fuel network: no interstitials beside xenon or vacancies. *)
Definition fuelClusters (cs : list tcl) : Prop := forall c, In c cs -> exists x v i r, c = Tcl [x; v; i] r /\ (0 <= fst x < snd x)%Z /\ (0 <= fst v < snd v)%Z /\
  (0 <= fst i < snd i)%Z /\ ((0 < fst v)%Z -> i = (0, 1)%Z).
Lemma denominator_bubbles cs f : fuelClusters cs -> ratioDenominator cs f 1 0 2 = weight (bubbles cs f).
Proof.
  intros F. unfold weight. rewrite bubbles_sum. unfold ratioDenominator, reduce. apply Rsum_ext. intros k Hk. apply in_seq in Hk. cbv beta.
  destruct (F (nth k cs tdummy)) as (x & v & i & r & E & Hx & Hv & Hi & P); [apply nth_In; lia|]. rewrite E. unfold factorOf, axis. cbn [taxes nth radius].
  destruct (Z.ltb_spec 0 (fst v)) as [L|L]; [|reflexivity]. rewrite (P L). apply Rsum_ext. intros y _. destruct (2 <=? y)%Z; [|reflexivity].
  cbn [fst snd]. rewrite Rsum_const. unfold vol. cbn [fold_right]. replace (len (0, 1)%Z) with 1%Z by reflexivity. rewrite !Z.mul_1_r, mult_IZR.
  assert (Lx : (0 < len x)%Z) by (unfold len; lia). apply IZR_lt in Lx. rewrite inter_len by lia. cbn [fst snd]. field. lra.
Qed.
Lemma fuel_proper cs : fuelClusters cs -> proper 3 cs.
Proof.
  intros F. apply Forall_forall. intros c Hc. destruct (F _ Hc) as (x & v & i & r & -> & Hx & Hv & Hi & _). split; [reflexivity|]. cbn [taxes]. do 3 (apply Forall_cons; [assumption|]). apply Forall_nil.
Qed.
(** A row has the time, the content of xenon (if the moments on its axis are 0: C21), the concentration of each cluster named, and the mean and the variance of the xenon per vacancy of the
    bubbles, weighted by their volumes; without xenon both are written as 0. *)
Theorem c88_row cs concs mom cols time : fuelClusters cs -> (forall i, (i < length cs)%nat -> mom i 0%nat = 0) ->
  exists content tail, row cs concs cols time = Some time :: Some content :: map (fun col => Some (concs (snd col))) cols ++ tail /\
    content = compositionSum cs concs mom 0 1 (fun _ x => IZR (nth 0 x 0%Z)) /\
    (content < / 10 ^ 16 -> tail = [Some 0; Some 0]) /\
    (/ 10 ^ 16 <= content -> weight (bubbles cs concs) <> 0 -> exists m s, tail = [Some m; Some s] /\ mean (bubbles cs concs) m /\ variance (bubbles cs concs) m s).
Proof.
  intros F M. unfold row. eexists. eexists. split; [reflexivity|]. split; [apply (@c21_atoms_partial 3 cs concs mom 0 1 (fuel_proper F)); [lia|exact M]|].
  rewrite (denominator_bubbles concs F), numerator_bubbles. unfold quotient. split; intros H.
  - destruct (Rlt_dec _ _); [reflexivity|contradiction].
  - intros W. destruct (Rlt_dec _ _); [lra|]. destruct (Req_EM_T (weight (bubbles cs concs)) 0); [contradiction|]. do 2 eexists. split; [reflexivity|]. rewrite variance_bubbles.
    unfold mean, variance. split; field; exact W.
Qed.
(** As many entries as headings. *)
Theorem c88_width cs concs cols time : length (row cs concs cols time) = length (headings cols) /\
  (forall k h id, nth_error cols k = Some (h, id) -> nth_error (headings cols) (2 + k) = Some h /\ nth_error (row cs concs cols time) (2 + k) = Some (Some (concs id))) /\
  firstn 2 (headings cols) = [HTime; HContent] /\ skipn (2 + length cols) (headings cols) = [HRatio; HVariance].
Proof.
  unfold row, headings. split; [|split; [|split]].
  - rewrite !app_length, !map_length. cbn [length]. destruct (Rlt_dec _ _); [reflexivity|]. destruct (quotient _ _); reflexivity.
  - intros k h id H. assert (L : (k < length cols)%nat) by (apply nth_error_Some; congruence). cbn [app Nat.add nth_error].
    rewrite !nth_error_app1 by (rewrite map_length; exact L). split; [rewrite (map_nth_error fst _ _ H); reflexivity|rewrite (map_nth_error (fun col => Some (concs (snd col))) _ _ H); reflexivity].
  - reflexivity.
  - cbn [app Nat.add skipn]. rewrite skipn_app, map_length, Nat.sub_diag. rewrite (skipn_all2 (map fst cols)) by (rewrite map_length; lia). reflexivity.
Qed.
(** Xe_2V_1 and Xe_4V_1, radius 1, concentrations 3 and 1: mean 2.5, variance 0.75. *)
Definition exCs := [Tcl [(2, 3); (1, 2); (0, 1)]%Z 1; Tcl [(4, 5); (1, 2); (0, 1)]%Z 1].
Definition exConcs (i : nat) : R := match i with 0%nat => 3 | _ => 1 end.
Example c88_row_ok : fuelClusters exCs /\ bubbles exCs exConcs = [(3 * 1 ^ 3, 2 / 1); (1 * 1 ^ 3, 4 / 1)] /\ mean (bubbles exCs exConcs) (5 / 2) /\ variance (bubbles exCs exConcs) (5 / 2) (3 / 4) /\ weight (bubbles exCs exConcs) <> 0.
Proof.
  assert (B : bubbles exCs exConcs = [(3 * 1 ^ 3, 2 / 1); (1 * 1 ^ 3, 4 / 1)]) by reflexivity.
  split; [|split; [exact B|rewrite B; unfold mean, variance, weight; cbn [Rsum fst snd]; repeat split; lra]].
  intros c [<-|[<-|[]]]; do 4 eexists; (split; [reflexivity|]); cbn; repeat split; lia.
Qed.
(** Xenon, but no bubble with at least two xenon and a vacancy, as in networks of xenon alone: 0/0 is written twice. *)
Theorem c88_ratio_refuted cs concs cols time : fuelClusters cs -> (forall c, In c cs -> snd (axis c 1) = 1%Z) -> / 10 ^ 16 <= getTotalAtomConcentration cs concs 0 1 ->
  skipn (2 + length cols) (row cs concs cols time) = [None; None].
Proof.
  intros F V C. unfold row. cbn [app Nat.add skipn]. rewrite skipn_app, map_length, Nat.sub_diag. rewrite (skipn_all2 (map _ cols)) by (rewrite map_length; lia). cbn [app skipn].
  destruct (Rlt_dec _ _); [lra|]. rewrite (denominator_bubbles concs F). unfold quotient. destruct (Req_EM_T _ 0) as [E|E]; [reflexivity|]. exfalso. apply E.
  unfold weight. rewrite bubbles_sum. unfold reduce. apply Rsum_zero. intros i Hi. apply in_seq in Hi. assert (I : In (nth i cs tdummy) cs) by (apply nth_In; lia). specialize (V _ I).
  destruct (F _ I) as (x & v & j & r & Ec & Hx & Hv & _). rewrite Ec in *. unfold axis in *. cbn [taxes nth] in *. destruct (Z.ltb_spec 0 (fst v)); [lia|reflexivity].
Qed.
Example c88_ratio_refuted_ok : fuelClusters [Tcl [(2, 3); (0, 1); (0, 1)]%Z 1] /\ / 10 ^ 16 <= getTotalAtomConcentration [Tcl [(2, 3); (0, 1); (0, 1)]%Z 1] (fun _ => 1) 0 1.
Proof.
  split; [intros c [<-|[]]; do 4 eexists; (split; [reflexivity|]); cbn; repeat split; lia|].
  replace (getTotalAtomConcentration _ _ _ _) with 2 by (cbv -[IZR Rplus Rmult Rdiv Ropp Rminus Rinv]; lra).
  assert (/ 10 ^ 16 <= / 1) by (apply Rinv_le_contravar; lra). lra.
Qed.

(** Called through the interface of all networks the variance does not depend on the mean: the same bubbles, all with two xenon per vacancy, have a variance of 1 (for the minimum size 1). *)
Theorem c88_interface_refuted : exists cs concs, fuelClusters cs /\ mean (bubbles cs concs) 2 /\ variance (bubbles cs concs) 2 0 /\ forall m, varianceById cs concs m 1 = Some 1.
Proof.
  set (cs := [Tcl [(2, 3); (1, 2); (0, 1)]%Z 1]). exists cs, (fun _ => 1). assert (B : bubbles cs (fun _ => 1) = [(1 * 1 ^ 3, 2 / 1)]) by reflexivity.
  split; [intros c [<-|[]]; do 4 eexists; (split; [reflexivity|]); cbn; repeat split; lia|]. rewrite B. unfold mean, variance, weight. cbn [Rsum fst snd]. split; [lra|]. split; [lra|].
  intros m. unfold varianceById, quotient. replace (varianceNumerator cs (fun _ => 1) 1 0 1 0) with 1 by (cbv -[IZR Rplus Rmult Rdiv Ropp Rminus Rinv]; lra).
  replace (ratioDenominator cs (fun _ => 1) 1 0 0) with 1 by (cbv -[IZR Rplus Rmult Rdiv Ropp Rminus Rinv]; lra). destruct (Req_EM_T 1 0); [lra|]. f_equal. lra.
Qed.

(** ** Bubbles in iron *)
Definition within (r : Z * Z) (n : Z) : Prop := (fst r <= n < snd r)%Z.
Definition holds (r : region) (h v i : Z) : Prop := within (heR r) h /\ within (vR r) v /\ within (iR r) i.
(** Regions of an iron network: interstitials are alone; a region beginning on an axis stays on it (FeClusterGenerator); no region contains nothing at all. *)
Definition ironRegion (r : region) : Prop :=
  (0 <= fst (heR r) < snd (heR r))%Z /\ (0 <= fst (vR r) < snd (vR r))%Z /\ (0 <= fst (iR r) < snd (iR r))%Z /\
  (fst (heR r) = 0 -> snd (heR r) = 1)%Z /\ (fst (vR r) = 0 -> snd (vR r) = 1)%Z /\ (fst (iR r) = 0 -> snd (iR r) = 1)%Z /\
  (0 < fst (iR r) -> fst (heR r) = 0 /\ fst (vR r) = 0)%Z /\ (0 < fst (heR r) + fst (vR r) + fst (iR r))%Z.
Lemma rows_spec rs concs : Forall ironRegion rs -> forall i0 lh hh lv hv c,
  In (lh, hh, lv, hv, c) (bubbleRows i0 rs concs) <->
  exists i r, nth_error rs i = Some r /\ (0 < fst (heR r))%Z /\ (0 < fst (vR r))%Z /\ lh = fst (heR r) /\ hh = (snd (heR r) - 1)%Z /\ lv = fst (vR r) /\ hv = (snd (vR r) - 1)%Z /\ c = concs (i0 + i)%nat.
Proof.
  induction 1 as [|r rs Hr HF IH]; intros i0 lh hh lv hv c; cbn [bubbleRows].
  - split; [intros []|]. intros (i & r & H & _). destruct i; discriminate.
  - rewrite in_app_iff, IH. unfold ironRegion in Hr. destruct Hr as (H1 & H2 & H3 & H4 & H5 & H6 & H7 & H8).
    assert (D : onAxis (iR r) (heR r) (vR r) || onAxis (vR r) (heR r) (iR r) || onAxis (heR r) (vR r) (iR r) = negb ((0 <? fst (heR r))%Z && (0 <? fst (vR r))%Z)).
    { unfold onAxis, zero. destruct (Z.ltb_spec 0 (fst (iR r))), (Z.ltb_spec 0 (fst (heR r))), (Z.ltb_spec 0 (fst (vR r))), (Z.eqb_spec (fst (iR r)) 0), (Z.eqb_spec (fst (heR r)) 0), (Z.eqb_spec (fst (vR r)) 0); cbn [andb orb negb]; try reflexivity; lia. }
    rewrite D. split.
    + intros [H|(i & r' & E & Q)].
      * destruct (Z.ltb_spec 0 (fst (heR r))), (Z.ltb_spec 0 (fst (vR r))); cbn [andb negb] in H; try contradiction. destruct H as [H|[]]. injection H as <- <- <- <- <-.
        exists 0%nat, r. rewrite Nat.add_0_r. split; [reflexivity|]. repeat split; assumption.
      * exists (S i), r'. split; [exact E|]. replace (i0 + S i)%nat with (S i0 + i)%nat by lia. exact Q.
    + intros ([|i] & r' & E & P1 & P2 & -> & -> & -> & -> & ->).
      * cbn [nth_error] in E. injection E as <-. left. destruct (Z.ltb_spec 0 (fst (heR r))), (Z.ltb_spec 0 (fst (vR r))); try lia. left. rewrite Nat.add_0_r. reflexivity.
      * right. exists i, r'. split; [exact E|]. replace (i0 + S i)%nat with (S i0 + i)%nat by lia. repeat split; assumption.
Qed.
(** Every row is a cluster of helium and vacancies; every composition of helium and vacancies of the network is in the bounds of a row, with the concentration of its cluster,
    and in the bounds of no row with the concentration of another. *)
Theorem c88_bubble rs concs : Forall ironRegion rs -> (forall i j ri rj h v k, nth_error rs i = Some ri -> nth_error rs j = Some rj -> holds ri h v k -> holds rj h v k -> i = j) ->
  (forall i r h v, nth_error rs i = Some r -> holds r h v 0 -> (0 < h)%Z -> (0 < v)%Z ->
    (exists lh hh lv hv, In (lh, hh, lv, hv, concs i) (monitorBubble rs concs) /\ (lh <= h <= hh)%Z /\ (lv <= v <= hv)%Z) /\
    (forall lh hh lv hv c, In (lh, hh, lv, hv, c) (monitorBubble rs concs) -> (lh <= h <= hh)%Z -> (lv <= v <= hv)%Z -> c = concs i)) /\
  (forall lh hh lv hv c, In (lh, hh, lv, hv, c) (monitorBubble rs concs) ->
    exists i r, nth_error rs i = Some r /\ c = concs i /\ (0 < lh <= hh)%Z /\ (0 < lv <= hv)%Z /\ forall h v k, holds r h v k <-> (lh <= h <= hh)%Z /\ (lv <= v <= hv)%Z /\ k = 0%Z).
Proof.
  intros F Dj. unfold monitorBubble. assert (FI : forall i r, nth_error rs i = Some r -> ironRegion r) by (intros i r H; rewrite Forall_forall in F; apply F; eapply nth_error_In; exact H).
  split.
  - intros i r h v E Hh Ph Pv. pose proof (FI _ _ E) as Ir. destruct Hh as (Hh & Hv & Hi). unfold within in *. unfold ironRegion in Ir. split.
    + exists (fst (heR r)), (snd (heR r) - 1)%Z, (fst (vR r)), (snd (vR r) - 1)%Z. split; [|lia]. apply (rows_spec concs F). exists i, r. repeat split; try lia; try assumption.
    + intros lh hh lv hv c H B1 B2. apply (rows_spec concs F) in H. destruct H as (j & rj & Ej & P1 & P2 & -> & -> & -> & -> & ->). cbn [Nat.add]. f_equal.
      pose proof (FI _ _ Ej) as Ij. unfold ironRegion in Ij. apply (Dj j i rj r h v 0%Z); [exact Ej|exact E| |]; unfold holds, within; lia.
  - intros lh hh lv hv c H. apply (rows_spec concs F) in H. destruct H as (i & r & E & P1 & P2 & -> & -> & -> & -> & ->). exists i, r. pose proof (FI _ _ E) as Ir. unfold ironRegion in Ir.
    split; [exact E|]. split; [reflexivity|]. split; [lia|]. split; [lia|]. intros h v k. unfold holds, within. lia.
Qed.
(** V_1, He_1V_1 and a group of He_3V_2 to He_4V_3. *)
Definition exRegions := [Region (0, 1) (1, 2) (0, 1); Region (1, 2) (1, 2) (0, 1); Region (3, 5) (2, 4) (0, 1)]%Z.
Example c88_bubble_ok concs : Forall ironRegion exRegions /\ monitorBubble exRegions concs = [(1, 1, 1, 1, concs 1%nat); (3, 4, 2, 3, concs 2%nat)]%Z.
Proof. split; [apply Forall_forall; intros r [<-|[<-|[<-|[]]]]; unfold ironRegion; cbn; lia|reflexivity]. Qed.
Print Assumptions c88_columns.
Print Assumptions c88_marker_refuted.
Print Assumptions c88_row.
Print Assumptions c88_width.
Print Assumptions c88_ratio_refuted.
Print Assumptions c88_interface_refuted.
Print Assumptions c88_bubble.
