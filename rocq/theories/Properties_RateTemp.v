(** C80: the temperature at which the rates are evaluated. *)
From Coq Require Import Reals List Lia Lra ZArith.
From Verif Require Import TempGridModel GridProofs RateTempModel.
From Verif Require RestartModel Properties_TempGrid Properties_Restart.
Import ListNotations.
Open Scope R_scope.

(** ** One entry *)
Lemma differs_false s t : differs s t = false <-> Rabs (s - t) <= 1 / 10.
Proof. unfold differs. destruct (Rlt_dec (1 / 10) (Rabs (s - t))); split; intros; try discriminate; auto; lra. Qed.
Lemma accept_near s t : Rabs (accept s t - t) <= 1 / 10.
Proof.
  unfold accept. destruct (differs s t) eqn:E; [rewrite Rminus_diag_eq, Rabs_R0; lra|].
  apply differs_false. exact E.
Qed.
Lemma accept_same s t : differs s t = false -> accept s t = s.
Proof. unfold accept. intros ->. reflexivity. Qed.
Lemma accept_again s t : differs (accept s t) t = false.
Proof. apply differs_false, accept_near. Qed.

(** ** No dimension *)

(** After any evaluations of the right-hand side and of the Jacobian, the
    network is within a tenth of a kelvin of the handler's temperature. *)
Theorem c80_zero h z calls c time : zstored z = znetwork z ->
  Rabs (znetwork (fold_left (evaluate0 h) (calls ++ [(c, time)]) z) - h c 0 time) <= 1 / 10.
Proof.
  intros E. rewrite fold_left_app. cbn [fold_left].
  assert (E' : zstored (fold_left (evaluate0 h) calls z) = znetwork (fold_left (evaluate0 h) calls z)).
  { revert z E. induction calls as [|a r IH]; intros z E; [exact E|]. cbn [fold_left]. apply IH.
    unfold evaluate0. destruct (differs _ _); auto. }
  unfold evaluate0 at 1. cbn [fst snd]. destruct (differs _ _) eqn:D; cbn [znetwork].
  - rewrite Rminus_diag_eq, Rabs_R0; lra.
  - rewrite <- E'. apply differs_false. exact D.
Qed.
Example c80_zero_ok : zstored (mkZero 1000 1000) = znetwork (mkZero 1000 1000) /\
  znetwork (fold_left (evaluate0 (heatHandler false 1000)) [(1000.05, 1); (1003, 2)] (mkZero 1000 1000)) = 1003.
Proof.
  split; [reflexivity|]. cbn [fold_left]. unfold evaluate0, heatHandler. cbn [fst snd].
  rewrite !Rminus_0_l, !Rabs_Ropp, (Rabs_right 1), (Rabs_right 2) by lra.
  destruct (Rlt_dec 1 (1 / 2 ^ 52)) as [H|_]; [exfalso; assert (1 / 2 ^ 52 <= 1); [|lra]; apply Rmult_le_reg_r with (2 ^ 52); [lra|]; lra|].
  destruct (Rlt_dec 2 (1 / 2 ^ 52)) as [H|_]; [exfalso; assert (1 / 2 ^ 52 <= 1); [|lra]; apply Rmult_le_reg_r with (2 ^ 52); [lra|]; lra|].
  unfold differs at 2. destruct (Rlt_dec (1 / 10) (Rabs (zstored (mkZero 1000 1000) - 1000.05))) as [H|H].
  - cbn [zstored] in H. rewrite Rabs_left in H; lra.
  - unfold differs. cbn [zstored]. destruct (Rlt_dec (1 / 10) (Rabs (1000 - 1003))) as [G|G]; [reflexivity|].
    rewrite Rabs_left in G; lra.
Qed.

(** With a constant temperature it is that temperature from the start. *)
Theorem c80_zero_constant T dof initialConc calls c z :
  initialize0 (constantHandler T) dof initialConc None = Some (c, z) ->
  znetwork (fold_left (evaluate0 (constantHandler T)) calls z) = T.
Proof.
  cbn [initialize0]. intros E. inversion E; subst z. clear E. unfold constantHandler at 2 3.
  induction calls as [|a r IH]; [reflexivity|]. cbn [fold_left].
  replace (evaluate0 (constantHandler T) (mkZero T T) a) with (mkZero T T); [exact IH|].
  unfold evaluate0, constantHandler. cbn [zstored]. destruct (differs T T); reflexivity.
Qed.
Example c80_zero_constant_ok : exists c z,
  initialize0 (constantHandler 900) 3 [(1%nat, 2)] None = Some (c, z) /\ c 1%nat = 2 /\ c 3%nat = 900 /\ c 2%nat = 0.
Proof. do 2 eexists. split; [reflexivity|]. repeat split. Qed.

(** The rates are not determined by the time and the solution: they depend on
    the evaluations which came before. *)
Theorem c80_zero_history_refuted : exists bulk calls1 calls2 c time,
  let h := heatHandler false bulk in
  let z := mkZero bulk bulk in
  znetwork (fold_left (evaluate0 h) (calls1 ++ [(c, time)]) z) <>
  znetwork (fold_left (evaluate0 h) (calls2 ++ [(c, time)]) z).
Proof.
  exists 1000, [], [(1000.12, 1)], 1000.16, 2. cbv zeta. cbn [app fold_left]. unfold evaluate0, heatHandler. cbn [fst snd zstored znetwork].
  assert (B : 1 / 2 ^ 52 <= 1) by (apply Rmult_le_reg_r with (2 ^ 52); lra).
  rewrite !Rminus_0_l, !Rabs_Ropp, (Rabs_right 1), (Rabs_right 2) by lra.
  destruct (Rlt_dec 1 (1 / 2 ^ 52)) as [H|_]; [lra|]. destruct (Rlt_dec 2 (1 / 2 ^ 52)) as [H|_]; [lra|].
  unfold differs.
  repeat match goal with |- context [Rlt_dec (1 / 10) (Rabs (?a - ?b))] =>
    let H := fresh in destruct (Rlt_dec (1 / 10) (Rabs (a - b))) as [H|H]; cbn [zstored znetwork] in H;
    rewrite Rabs_left in H by lra; cbn [zstored znetwork]; try lra end.
Qed.

(** What is written in a checkpoint is what the restarted run starts with,
    up to entries of at most 1e-16 and with the temperature of the network. *)
Theorem c80_zero_restart h dof initialConc c : 1 / 10 ^ 16 < Rabs (c dof) -> exists f,
  initialize0 h dof initialConc (Some (written0 dof c)) = Some (f, mkZero (c dof) (c dof)) /\
  (forall l, (l <= dof)%nat -> Rabs (f l - c l) <= 1 / 10 ^ 16 /\ (1 / 10 ^ 16 < Rabs (c l) -> f l = c l)).
Proof.
  intros HT. unfold initialize0, written0.
  assert (PK : exists q, RestartModel.pack dof c = q ++ [(dof, c dof)]).
  { unfold RestartModel.pack. rewrite seq_app, map_app, filter_app. cbn [seq map filter snd Nat.add].
    destruct (Rlt_dec (1 / 10 ^ 16) (Rabs (c dof))); [|contradiction]. eexists. reflexivity. }
  destruct PK as [q PK]. eexists. split; [rewrite PK at 1; rewrite rev_app_distr; cbn [rev app snd]; reflexivity|].
  intros l Hl.
  rewrite (Properties_Restart.assign_fold c) by (intros i v Hi; apply Properties_Restart.pack_in in Hi; tauto).
  destruct (existsb (fun r0 => (fst r0 =? l)%nat) (RestartModel.pack dof c)) eqn:E.
  - rewrite Rminus_diag_eq, Rabs_R0 by reflexivity. split; [|reflexivity]. left. apply Rmult_lt_0_compat; [lra|]. apply Rinv_0_lt_compat, pow_lt; lra.
  - assert (N : ~ 1 / 10 ^ 16 < Rabs (c l)).
    { intros H. assert (existsb (fun r0 => (fst r0 =? l)%nat) (RestartModel.pack dof c) = true); [|congruence].
      apply existsb_exists. exists (l, c l). split; [apply Properties_Restart.pack_in; auto|apply Nat.eqb_refl]. }
    destruct (Nat.eqb_spec l dof) as [->|]; [contradiction|]. split; [|contradiction].
    rewrite Rminus_0_l, Rabs_Ropp. lra.
Qed.
Example c80_zero_restart_ok : 1 / 10 ^ 16 < Rabs ((fun l => if (l =? 2)%nat then 900 else 0) 2%nat).
Proof. cbn [Nat.eqb]. rewrite Rabs_right by lra. apply Rmult_lt_reg_r with (10 ^ 16); [apply pow_lt; lra|]. lra. Qed.

(** The vector handed to another instance gives back every entry. *)
Lemma assign_all (c : nat -> R) n : forall s (f : nat -> R) l, (s <= l < s + n)%nat ->
  fold_left (fun f r => RestartModel.upd f (fst r) (snd r)) (map (fun l => (l, c l)) (seq s n)) f l = c l.
Proof.
  induction n as [|n IH]; intros s f l Hl; [lia|]. cbn [seq map fold_left fst snd].
  destruct (Nat.eq_dec l s) as [->|]; [|apply IH; lia].
  assert (K : forall m s' (f' : nat -> R), (s < s')%nat ->
    fold_left (fun f r => RestartModel.upd f (fst r) (snd r)) (map (fun l => (l, c l)) (seq s' m)) f' s = f' s).
  { induction m as [|m IHm]; intros s' f' Hs; [reflexivity|]. cbn [seq map fold_left fst snd]. rewrite IHm by lia.
    unfold RestartModel.upd. destruct (Nat.eqb_spec s s'); [lia|reflexivity]. }
  rewrite K by lia. unfold RestartModel.upd. rewrite Nat.eqb_refl. reflexivity.
Qed.
Lemma assign_other (v : list (nat * R)) : forall (c : nat -> R) l, ~ In l (map fst v) ->
  fold_left (fun f r => RestartModel.upd f (fst r) (snd r)) v c l = c l.
Proof.
  induction v as [|[k x] v IH]; intros c l H; [reflexivity|]. cbn [map fst In] in H. cbn [fold_left fst snd].
  rewrite IH by tauto. unfold RestartModel.upd. destruct (Nat.eqb_spec l k) as [->|]; tauto.
Qed.
Lemma assign_given (v : list (nat * R)) : NoDup (map fst v) -> forall (c : nat -> R) l x, In (l, x) v ->
  fold_left (fun f r => RestartModel.upd f (fst r) (snd r)) v c l = x.
Proof.
  induction v as [|[k y] v IH]; intros N c l x H; [destruct H|]. cbn [map fst] in N. inversion N as [|? ? N1 N2]; subst.
  cbn [fold_left fst snd]. destruct H as [E|H].
  - injection E as -> ->. rewrite assign_other by exact N1. unfold RestartModel.upd. rewrite Nat.eqb_refl. reflexivity.
  - apply IH; assumption.
Qed.
(** A new run: the temperature of the handler at time zero, the concentrations of the options,
    everything else empty. *)
Theorem c80_zero_start h dof initialConc c z : NoDup (map fst initialConc) ->
  initialize0 h dof initialConc None = Some (c, z) ->
  zstored z = h 0 0 0 /\ znetwork z = h 0 0 0 /\
  (forall l v, In (l, v) initialConc -> c l = v) /\
  (~ In dof (map fst initialConc) -> c dof = h 0 0 0) /\
  (forall l, l <> dof -> ~ In l (map fst initialConc) -> c l = 0).
Proof.
  intros N E. cbn [initialize0] in E. injection E as <- <-. unfold initialEntries. repeat split.
  - intros l v H. apply assign_given; assumption.
  - intros H. rewrite assign_other by exact H. rewrite Nat.eqb_refl. reflexivity.
  - intros l D H. rewrite assign_other by exact H. destruct (Nat.eqb_spec l dof); tauto.
Qed.
Example c80_zero_start_ok : NoDup (map fst [(1%nat, 2); (0%nat, 5)]) /\
  exists c z, initialize0 (heatHandler false 900) 3 [(1%nat, 2); (0%nat, 5)] None = Some (c, z).
Proof. split; [repeat constructor; cbn; intuition discriminate|]. do 2 eexists. reflexivity. Qed.
Theorem c80_zero_vector dof c c' :
  (forall l, (l <= dof)%nat -> fst (setConc0 dof c' (getConc0 dof c)) l = c l) /\
  (forall l, (dof < l)%nat -> fst (setConc0 dof c' (getConc0 dof c)) l = c' l) /\
  snd (setConc0 dof c' (getConc0 dof c)) = mkZero (c dof) (c dof).
Proof.
  unfold setConc0, getConc0. cbn [fst snd]. split.
  - intros l Hl. apply assign_all. lia.
  - split; [|rewrite assign_all by lia; reflexivity]. intros l Hl. apply assign_other.
    rewrite map_map. cbn [fst]. rewrite map_id. rewrite in_seq. lia.
Qed.
Example c80_zero_vector_ok : getConc0 2 (fun l => if (l =? 2)%nat then 900 else INR l) = [(0%nat, INR 0); (1%nat, INR 1); (2%nat, 900)].
Proof. reflexivity. Qed.

(** ** One dimension *)

(** The pointwise distance of two temperature vectors. *)
Definition nearAll (a b : list R) : Prop := length a = length b /\ forall k, Rabs (a.[k] - b.[k]) <= 1 / 10.

Lemma store_length s t : length s = length t -> length (store s t) = length t.
Proof. intros H. unfold store. rewrite map_length, combine_length. lia. Qed.
Lemma store_near s t : length s = length t -> nearAll (store s t) t.
Proof.
  intros H. split; [apply store_length; exact H|]. intros k.
  destruct (Nat.lt_ge_cases k (length t)) as [L|L].
  - unfold store. rewrite (nth_indep _ 0 ((fun p => accept (fst p) (snd p)) (0, 0))) by (rewrite map_length, combine_length; lia).
    rewrite (map_nth (fun p => accept (fst p) (snd p)) (combine s t) (0, 0) k).
    rewrite combine_nth by exact H. cbn [fst snd]. apply accept_near.
  - rewrite !nth_overflow by (rewrite ?store_length; lia). rewrite Rminus_diag_eq, Rabs_R0; lra.
Qed.
Lemma store_unchanged s : forall t, length s = length t -> changed s t = false -> store s t = s.
Proof.
  induction s as [|a s IH]; intros [|b t] L H; cbn in L; try lia; [reflexivity|].
  unfold store, changed in *. cbn [combine map existsb fst snd] in *. apply Bool.orb_false_iff in H. destruct H as [H1 H2].
  rewrite accept_same by exact H1. f_equal. apply IH; [lia|exact H2].
Qed.
Lemma store_settled s : forall t, length s = length t -> changed (store s t) t = false.
Proof.
  induction s as [|a s IH]; intros [|b t] L; cbn in L; try lia; [reflexivity|].
  unfold store, changed in *. cbn [combine map existsb fst snd] in *. rewrite accept_again. apply IH. lia.
Qed.

(** The processes of a decomposition, in order, with vectors of the right size. *)
Fixpoint laidOut (start : nat) (sizes : list nat) (rs : list rank) : Prop :=
  match sizes, rs with
  | [], [] => True
  | m :: sizes', r :: rs' =>
      localXS r = start /\ localXM r = m /\ length (localTemp r) = (m + 2)%nat /\ laidOut (start + m) sizes' rs'
  | _, _ => False
  end.
(** The part of a vector of temperatures which each process sees. *)
Fixpoint windows (start : nat) (sizes : list nat) (T : list R) : list (list R) :=
  match sizes with [] => [] | m :: r => firstn (m + 2) (skipn start T) :: windows (start + m) r T end.

Lemma window_length (T : list R) start m n : length T = (n + 2)%nat -> (start + m <= n)%nat -> length (firstn (m + 2) (skipn start T)) = (m + 2)%nat.
Proof. intros L H. rewrite firstn_length, skipn_length. lia. Qed.

(** [near] for processes *)
Fixpoint nearRanks (rs : list rank) (ts : list (list R)) : Prop :=
  match rs, ts with
  | [], [] => True
  | r :: rs', t :: ts' => nearAll (localTemp r) t /\ nearRanks rs' ts'
  | _, _ => False
  end.

(** the ranks which are left by an evaluation *)
Definition movedRanks (ps : list Proc) (seen : list (list R)) : list rank :=
  map fst (map (fun q => let '((r, n), t) := q in
                 (Rank (localXS r) (localXM r) (store (localTemp r) t), n)) (combine ps seen)).
Lemma moved_ok n T sizes : length T = (n + 2)%nat -> forall start ps, (start + list_sum sizes <= n)%nat ->
  laidOut start sizes (map fst ps) ->
  laidOut start sizes (movedRanks ps (windows start sizes T)) /\ nearRanks (movedRanks ps (windows start sizes T)) (windows start sizes T).
Proof.
  intros LT. induction sizes as [|m sizes IH]; intros start [|[r nw] ps] HS H; cbn [map fst laidOut] in H; try contradiction; [split; exact I|].
  cbn [list_sum fold_right] in HS. fold (list_sum sizes) in HS.
  destruct H as (H1 & H2 & H3 & H4). destruct (IH (start + m)%nat ps ltac:(lia) H4) as [A B].
  assert (W : length (firstn (m + 2) (skipn start T)) = (m + 2)%nat) by (apply window_length with n; auto; lia).
  unfold movedRanks. cbn [windows combine map fst laidOut nearRanks localXS localXM localTemp]. split.
  - repeat split; auto. rewrite store_length; lia.
  - split; [apply store_near; lia|exact B].
Qed.

Lemma setAll_fst same nX g tg rs : map fst (setAll same nX g tg rs) = rs.
Proof. unfold setAll. rewrite map_map. cbn [fst]. apply map_id. Qed.

Lemma unmoved n T sizes : length T = (n + 2)%nat -> forall start ps, (start + list_sum sizes <= n)%nat ->
  laidOut start sizes (map fst ps) ->
  existsb (fun q => changed (localTemp (fst (fst q))) (snd q)) (combine ps (windows start sizes T)) = false ->
  map (fun q : Proc * list R => let '((r, n), t) := q in
                 (Rank (localXS r) (localXM r) (store (localTemp r) t), n)) (combine ps (windows start sizes T)) = ps.
Proof.
  intros LT. induction sizes as [|m sizes IH]; intros start [|[r nw] ps] HS H HE; cbn [map fst laidOut] in H; try contradiction; [reflexivity|].
  cbn [list_sum fold_right] in HS. fold (list_sum sizes) in HS.
  destruct H as (H1 & H2 & H3 & H4). cbn [windows combine map existsb fst snd] in *. apply Bool.orb_false_iff in HE. destruct HE as [E1 E2].
  rewrite store_unchanged; [|rewrite window_length with (n := n); lia|exact E1].
  rewrite IH by (auto; lia). destruct r. reflexivity.
Qed.

Lemma settled n T sizes : length T = (n + 2)%nat -> forall start ps, (start + list_sum sizes <= n)%nat ->
  laidOut start sizes (map fst ps) ->
  forall ps', map fst ps' = movedRanks ps (windows start sizes T) ->
  existsb (fun q : Proc * list R => changed (localTemp (fst (fst q))) (snd q)) (combine ps' (windows start sizes T)) = false.
Proof.
  intros LT. induction sizes as [|m sizes IH]; intros start [|[r nw] ps] HS H [|p' ps'] E; cbn [map fst laidOut] in H; try contradiction;
    unfold movedRanks in E; cbn [windows combine map] in E; try discriminate; [reflexivity|].
  cbn [list_sum fold_right] in HS. fold (list_sum sizes) in HS.
  destruct H as (H1 & H2 & H3 & H4). injection E as E1 E2. cbn [windows combine existsb fst snd]. rewrite E1. cbn [localTemp].
  rewrite store_settled by (rewrite window_length with (n := n); lia). cbn [orb]. apply IH with ps; auto; lia.
Qed.

(** One evaluation keeps the layout and the networks in step with the stored
    temperatures, which are then within a tenth of the seen ones. *)
Lemma evaluate1_ok same g tg sizes T ps : sizes <> [] -> let nX := list_sum sizes in
  length T = (nX + 2)%nat -> laidOut 0 sizes (map fst ps) -> ps = setAll same nX g tg (map fst ps) ->
  let ps' := evaluate1 same nX g tg ps (windows 0 sizes T) in
  map fst ps' = movedRanks ps (windows 0 sizes T) /\
  laidOut 0 sizes (map fst ps') /\ ps' = setAll same nX g tg (map fst ps') /\ nearRanks (map fst ps') (windows 0 sizes T).
Proof.
  intros _ nX LT LO C ps'. destruct (moved_ok nX T sizes LT 0 ps ltac:(unfold nX; lia) LO) as [A B].
  assert (F : map fst ps' = movedRanks ps (windows 0 sizes T)).
  { unfold ps', evaluate1. destruct (existsb _ _); [rewrite setAll_fst|]; reflexivity. }
  rewrite F. repeat split; auto. unfold ps', evaluate1. destruct (existsb _ _) eqn:E; [reflexivity|].
  unfold movedRanks. rewrite unmoved with (n := nX); auto; unfold nX; lia.
Qed.

Lemma abs_bounds a b : Rabs a <= b -> - b <= a <= b.
Proof. unfold Rabs. destruct (Rcase_abs a); lra. Qed.
Lemma search_near tg t1 t2 x : (forall j, Rabs (t1.[j] - t2.[j]) <= 1 / 10) -> forall js,
  match search tg t1 x js, search tg t2 x js with
  | Some a, Some b => Rabs (a - b) <= 1 / 10 | None, None => True | _, _ => False end.
Proof.
  intros H. induction js as [|j js IH]; [exact I|]. cbn [search]. destruct (Rle_dec (loc tg j) x) as [H1|]; [|exact IH].
  destruct (Rlt_dec x (loc tg (S j))) as [H2|]; [|exact IH].
  set (w := (x - loc tg j) / (loc tg (S j) - loc tg j)).
  assert (W : 0 <= w <= 1).
  { unfold w. split; [apply Rmult_le_pos; [lra|left; apply Rinv_0_lt_compat; lra]|].
    apply Rmult_le_reg_r with (loc tg (S j) - loc tg j); [lra|]. unfold Rdiv. rewrite Rmult_assoc, Rinv_l by lra. lra. }
  assert (G1 := H j). assert (G2 := H (S j)). apply abs_bounds in G1, G2. apply Rabs_le.
  split; nra.
Qed.
Lemma interpolated_near nX g tg t1 t2 i : (forall j, Rabs (t1.[j] - t2.[j]) <= 1 / 10) ->
  Rabs (interpolated nX g tg t1 i - interpolated nX g tg t2 i) <= 1 / 10.
Proof.
  intros H. unfold interpolated. assert (S := search_near tg t1 t2 (loc g i) H (seq 0 (nX + 1))).
  destruct (search tg t1 _ _), (search tg t2 _ _); auto; contradiction.
Qed.

Lemma nth_map_seq (f : nat -> R) n k : (k < n)%nat -> (map f (seq 0 n)).[k] = f k.
Proof.
  intros H. rewrite (nth_indep _ 0 (f 0%nat)) by (rewrite map_length, seq_length; exact H).
  rewrite map_nth, seq_nth by exact H. reflexivity.
Qed.
(** What is gathered from the processes is as near as what they store. *)
Lemma gathered_near nX T : forall sizes start rs, laidOut start sizes rs -> nearRanks rs (windows start sizes T) ->
  nearAll (gathered nX rs) (gathered nX (Properties_TempGrid.ranksOf start sizes T)).
Proof.
  induction sizes as [|m sizes IH]; intros start [|r rs] L H; cbn [laidOut windows nearRanks] in *; try contradiction.
  - split; [reflexivity|]. intros k. rewrite Rminus_diag_eq, Rabs_R0 by reflexivity. lra.
  - destruct L as (L1 & L2 & L3 & L4), H as [[HL HN] H]. destruct (IH _ _ L4 H) as [IL IN].
    unfold gathered in *. cbn [Properties_TempGrid.ranksOf flat_map].
    assert (V : nearAll (valuesToSend nX r) (valuesToSend nX (Rank start m (firstn (m + 2) (skipn start T))))).
    { unfold valuesToSend, toSend. cbn [localXS localXM localTemp]. rewrite L1, L2. split; [rewrite !map_length; reflexivity|].
      intros k. set (n := (m + _ + _)%nat). destruct (Nat.lt_ge_cases k n) as [K|K].
      - rewrite !nth_map_seq by exact K. apply HN.
      - rewrite !nth_overflow by (rewrite map_length, seq_length; lia). rewrite Rminus_diag_eq, Rabs_R0; lra. }
    destruct V as [VL VN]. split; [rewrite !app_length; lia|]. intros k.
    destruct (Nat.lt_ge_cases k (length (valuesToSend nX r))) as [K|K].
    + rewrite !app_nth1 by lia. apply VN.
    + rewrite !app_nth2 by lia. rewrite <- VL. apply IN.
Qed.

Lemma in_laid T : forall sizes start rs r, laidOut start sizes rs -> nearRanks rs (windows start sizes T) -> In r rs ->
  exists s m, localXS r = s /\ localXM r = m /\ (start <= s)%nat /\ nearAll (localTemp r) (firstn (m + 2) (skipn s T)).
Proof.
  induction sizes as [|m sizes IH]; intros start [|r0 rs] r L H HI; cbn [laidOut windows nearRanks] in *; try contradiction.
  destruct L as (L1 & L2 & L3 & L4), H as [HN H]. destruct HI as [->|HI].
  - exists start, m. repeat split; auto; apply HN.
  - destruct (IH _ _ _ L4 H HI) as (s & k & A & B & C & D). exists s, k. repeat split; auto; try lia; apply D.
Qed.

(** On every process, after any evaluations, each temperature of the network is
    within a tenth of a kelvin of the one seen at its point, or of the
    interpolation of the seen ones when the temperature has its own grid. *)
Theorem c80_line same g tg sizes ps Ts T : sizes <> [] -> Forall (fun m => (1 <= m)%nat) sizes ->
  let nX := list_sum sizes in
  Forall (fun t => length t = (nX + 2)%nat) (Ts ++ [T]) ->
  laidOut 0 sizes (map fst ps) -> ps = setAll same nX g tg (map fst ps) ->
  forall r n k, In (r, n) (fold_left (evaluate1 same nX g tg) (map (windows 0 sizes) (Ts ++ [T])) ps) ->
  (k < localXM r + 2)%nat ->
  Rabs (n.[k] - (if same then T.[localXS r + k] else interpolated nX g tg T (localXS r + k))) <= 1 / 10.
Proof.
  intros Hne Hf nX HT LO C r n k HI Hk. rewrite map_app, fold_left_app in HI. cbn [map fold_left] in HI.
  apply Forall_app in HT. destruct HT as [HTs HT]. inversion HT as [|? ? HT' _]. subst x l. clear HT.
  assert (INV : let ps' := fold_left (evaluate1 same nX g tg) (map (windows 0 sizes) Ts) ps in
    laidOut 0 sizes (map fst ps') /\ ps' = setAll same nX g tg (map fst ps')).
  { clear HI. revert ps LO C. induction HTs as [|t Ts Ht HTs IH]; intros ps LO C; [split; assumption|]. cbn [map fold_left].
    destruct (evaluate1_ok same g tg sizes t ps Hne Ht LO C) as (_ & A & B & _). apply IH; assumption. }
  cbv zeta in INV. destruct INV as [LO' C'].
  destruct (evaluate1_ok same g tg sizes T _ Hne HT' LO' C') as (_ & A & B & N). fold nX in A, B, N.
  set (ps' := evaluate1 same nX g tg _ (windows 0 sizes T)) in *.
  rewrite B in HI. unfold setAll in HI. apply in_map_iff in HI. destruct HI as (r' & E & HI). injection E as -> <-.
  unfold networkTemp. destruct same.
  - destruct (in_laid T _ _ _ _ A N HI) as (s & m & S1 & S2 & _ & [_ D]). subst s m.
    specialize (D k). rewrite Properties_TempGrid.nth_firstn_skipn in D by exact Hk. exact D.
  - rewrite (nth_indep _ 0 (interpolated nX g tg (gathered nX (map fst ps')) 0)) by (rewrite map_length, seq_length; exact Hk).
    rewrite map_nth, seq_nth by exact Hk. apply interpolated_near.
    destruct (gathered_near nX T sizes 0 _ A N) as [_ D].
    unfold nX in D at 2. rewrite (Properties_TempGrid.c31_gathered T sizes) in D by auto. exact D.
Qed.
Example c80_line_ok : let sizes := [2; 1]%nat in
  let ps := setAll true 3 [0; 1; 2; 3; 4] [0; 1; 2; 3; 4] (Properties_TempGrid.ranksOf 0 sizes [900; 900; 901; 902; 902]) in
  laidOut 0 sizes (map fst ps) /\ ps = setAll true 3 [0; 1; 2; 3; 4] [0; 1; 2; 3; 4] (map fst ps) /\ length ps = 2%nat.
Proof. cbv zeta. repeat split; cbn; auto. Qed.

(** The Jacobian after the right-hand side, at the same solution and time, has
    the same rates. *)
Theorem c80_line_repeat same g tg sizes ps T : sizes <> [] -> let nX := list_sum sizes in
  length T = (nX + 2)%nat -> laidOut 0 sizes (map fst ps) -> ps = setAll same nX g tg (map fst ps) ->
  let ps' := evaluate1 same nX g tg ps (windows 0 sizes T) in
  evaluate1 same nX g tg ps' (windows 0 sizes T) = ps'.
Proof.
  intros Hne nX HT LO C ps'. destruct (evaluate1_ok same g tg sizes T ps Hne HT LO C) as (F & A & B & N). fold nX in F, A, B, N. fold ps' in F, A, B, N.
  assert (E : existsb (fun q : Proc * list R => changed (localTemp (fst (fst q))) (snd q)) (combine ps' (windows 0 sizes T)) = false).
  { apply settled with (n := nX) (ps := ps); auto; unfold nX; lia. }
  unfold evaluate1. replace (existsb _ _) with false by (symmetry; exact E).
  apply unmoved with (n := nX); auto; unfold nX; lia.
Qed.
Example c80_line_repeat_ok : let ps := setAll true 3 [0; 1; 2; 3; 4] [0; 1; 2; 3; 4] [Rank 0 3 [900; 900; 900; 900; 900]] in
  laidOut 0 [3%nat] (map fst ps) /\ ps = setAll true 3 [0; 1; 2; 3; 4] [0; 1; 2; 3; 4] (map fst ps) /\
  windows 0 [3%nat] [900; 901; 902; 903; 904] = [[900; 901; 902; 903; 904]].
Proof. cbv zeta. repeat split; cbn; auto. Qed.

(** ** Two and three dimensions *)

Lemma columns_same cols : forall s n, s = n -> fst (evaluateColumns (s, n) cols) = snd (evaluateColumns (s, n) cols) \/
  ~ Forall (fun t => length t = length s) cols.
Proof.
  induction cols as [|t cols IH]; intros s n E; [left; exact E|]. unfold evaluateColumns in *. cbn [fold_left]. unfold evaluateColumn at 2 4. cbn [fst snd].
  destruct (Nat.eq_dec (length s) (length t)) as [L|L].
  - destruct (changed s t) eqn:C.
    + destruct (IH (store s t) (store s t) eq_refl) as [H|H]; [left; exact H|]. right. intros F. inversion F; subst. apply H.
      rewrite store_length by exact L. rewrite <- L. assumption.
    + rewrite store_unchanged by auto. subst n. destruct (IH s s eq_refl) as [H|H]; [left; exact H|]. right. intros F. inversion F; subst. contradiction.
  - right. intros F. inversion F; subst. lia.
Qed.
Lemma columns_length cols : forall s n, Forall (fun t => length t = length s) cols -> length (fst (evaluateColumns (s, n) cols)) = length s.
Proof.
  induction cols as [|t cols IH]; intros s n F; [reflexivity|]. inversion F as [|? ? L F']. subst x l. unfold evaluateColumns in *. cbn [fold_left].
  unfold evaluateColumn at 2. cbn [fst snd]. assert (LS : length (store s t) = length s) by (rewrite store_length; lia).
  destruct (changed s t); rewrite IH; rewrite ?LS; auto.
Qed.

(** The network is within a tenth of a kelvin of the temperatures of the last
    column of the process. *)
Theorem c80_columns s cols t : Forall (fun t => length t = length s) (cols ++ [t]) ->
  forall k, Rabs ((snd (evaluateColumns (s, s) (cols ++ [t]))).[k] - t.[k]) <= 1 / 10.
Proof.
  intros F k. apply Forall_app in F. destruct F as [F Ft]. inversion Ft as [|? ? L _]. subst x l.
  unfold evaluateColumns. rewrite fold_left_app. cbn [fold_left]. fold (evaluateColumns (s, s) cols).
  destruct (columns_same cols s s eq_refl) as [E|E]; [|contradiction]. pose proof (columns_length cols s s F) as LL.
  destruct (evaluateColumns (s, s) cols) as [a b]. cbn [fst snd] in *. subst b.
  assert (LA : length a = length t) by lia. unfold evaluateColumn. cbn [fst snd].
  destruct (changed a t) eqn:C; cbn [snd].
  - apply store_near. exact LA.
  - rewrite <- (store_unchanged a t LA C). apply store_near. exact LA.
Qed.
Example c80_columns_ok : Forall (fun t : list R => length t = length [900; 900]) ([[900; 910]; [905; 915]] ++ [[906; 916]]).
Proof. repeat constructor. Qed.

(** When no column is more than the tolerance away from the stored temperatures, the network
    keeps the ones it has, also where they are not the stored ones (own temperature grid). *)
Theorem c80_columns_still q columns : (forall seen, In seen columns -> nearAll (fst q) seen) -> evaluateColumns q columns = q.
Proof.
  intros H. induction columns as [|t cols IH]; [reflexivity|]. unfold evaluateColumns in *. cbn [fold_left].
  assert (E : evaluateColumn q t = q).
  { destruct (H t (or_introl eq_refl)) as [L N]. destruct q as [s n]. cbn [fst] in *. unfold evaluateColumn. cbn [fst snd].
    assert (C : changed s t = false).
    { clear IH H. revert t L N. induction s as [|a s IH]; intros [|b t] L N; cbn in L; try lia; [reflexivity|]. unfold changed. cbn [combine existsb fst snd].
      rewrite (proj2 (differs_false a b)) by exact (N 0%nat). apply (IH t); [lia|]. intros k. exact (N (S k)). }
    rewrite C, store_unchanged by assumption. reflexivity. }
  rewrite E. apply IH. intros; apply H; right; assumption.
Qed.
Example c80_columns_still_ok : evaluateColumns ([900; 910], [950; 950]) [[900.05; 910]; [899.95; 910.02]] = ([900; 910], [950; 950]).
Proof.
  apply c80_columns_still. intros seen [<-|[<-|[]]]; (split; [reflexivity|]); intros [|[|k]]; cbn [fst nth]; try (apply Rabs_le; lra);
    destruct k; rewrite Rminus_diag_eq, Rabs_R0; lra.
Qed.

(** All the columns of a process have the rates of its last column: a column
    whose temperature differs by [d] has rates which are wrong by [d]. *)
Theorem c80_columns_refuted a d : 1 / 10 < d ->
  snd (evaluateColumns ([a], [a]) [[a]; [a + d]]) = [a + d] /\
  Rabs ((snd (evaluateColumns ([a], [a]) [[a]; [a + d]])).[0] - a) = d.
Proof.
  intros H. assert (E : snd (evaluateColumns ([a], [a]) [[a]; [a + d]]) = [a + d]).
  { unfold evaluateColumns, evaluateColumn, changed, store, accept. cbn [fold_left combine map existsb fst snd].
    assert (D1 : differs a a = false) by (apply differs_false; rewrite Rminus_diag_eq, Rabs_R0; lra).
    rewrite !D1. cbn [orb fst snd combine map existsb].
    assert (D2 : differs a (a + d) = true).
    { unfold differs. destruct (Rlt_dec (1 / 10) (Rabs (a - (a + d)))) as [G|G]; [reflexivity|]. exfalso. apply G.
      replace (a - (a + d)) with (- d) by lra. rewrite Rabs_Ropp, Rabs_right; lra. }
    rewrite !D2. reflexivity. }
  rewrite E. split; [reflexivity|]. cbn [nth]. replace (a + d - a) with d by lra. apply Rabs_right. lra.
Qed.
Example c80_columns_refuted_ok : 1 / 10 < 200.
Proof. lra. Qed.

(** And evaluating a second time at the same solution and time can change the
    rates: the Jacobian is not evaluated at the temperature of the right-hand
    side. *)
Theorem c80_columns_repeat_refuted : exists s cols,
  Forall (fun t : list R => length t = length s) cols /\
  let q := evaluateColumns (s, s) cols in
  snd (evaluateColumns q cols) <> snd q.
Proof.
  exists [1000.05], [[1000]; [1000.12]; [1000.16]]. split; [repeat constructor|]. cbv zeta.
  assert (T : forall a b, 1 / 10 < a - b \/ 1 / 10 < b - a -> differs a b = true).
  { intros a b H. unfold differs. destruct (Rlt_dec (1 / 10) (Rabs (a - b))) as [G|G]; [reflexivity|]. exfalso. apply G.
    unfold Rabs. destruct (Rcase_abs (a - b)); lra. }
  assert (N : forall a b, a - b <= 1 / 10 -> b - a <= 1 / 10 -> differs a b = false).
  { intros a b H1 H2. apply differs_false. apply Rabs_le. lra. }
  unfold evaluateColumns, evaluateColumn, changed, store, accept. cbn [fold_left combine map existsb fst snd].
  rewrite (N 1000.05 1000) by lra. cbn [orb fst snd combine map existsb].
  rewrite (N 1000.05 1000.12) by lra. cbn [orb fst snd combine map existsb].
  rewrite (T 1000.05 1000.16) by lra. cbn [orb fst snd combine map existsb].
  rewrite (T 1000.16 1000) by lra. cbn [orb fst snd combine map existsb].
  rewrite (T 1000 1000.12) by lra. cbn [orb fst snd combine map existsb].
  rewrite (N 1000.12 1000.16) by lra. cbn [orb fst snd combine map existsb].
  intros E. injection E as E. lra.
Qed.

(** ** Depths *)

(** The depth given with a temperature is not the one of its grid point but
    of the next one. *)
Theorem c80_depth_refuted g nX xs i : increasing g -> length g = (nX + 2)%nat -> (xs + i <= nX)%nat ->
  depthOf g nX xs 0 i = loc g (xs + i + 1) /\ loc g (xs + i) < depthOf g nX xs 0 i.
Proof.
  intros Hg Hl Hi. unfold depthOf. destruct (Nat.eqb_spec (xs + i) (nX + 1)); [lia|]. cbn [Nat.add].
  assert (E : (g.[xs + i + 1] + g.[xs + i]) / 2 - g.[1] = loc g (xs + i + 1)).
  { rewrite Nat.add_1_r. cbn [loc]. lra. }
  split; [exact E|]. rewrite E. rewrite Nat.add_1_r. destruct (xs + i)%nat as [|j] eqn:X.
  - cbn [loc]. assert (H := Hg 0%nat ltac:(lia)). lra.
  - cbn [loc]. assert (H1 := Hg j ltac:(lia)). assert (H2 := Hg (S j) ltac:(lia)). lra.
Qed.
Example c80_depth_refuted_ok : depthOf [0; 1; 2; 3; 4] 3 0 0 2 = 1.5 /\ loc [0; 1; 2; 3; 4] 2 = 0.5.
Proof. unfold depthOf, loc. cbn. lra. Qed.

(** The last entry is the one exception: it has the depth of the end of the grid below the surface, in front of
    which all the others are. *)
Theorem c80_depth_last g nX xs surface i j : increasing g -> length g = (nX + 2)%nat -> (xs + i = nX + 1)%nat -> (j < i)%nat ->
  depthOf g nX xs surface i + g.[surface + 1] = last g 0 /\ depthOf g nX xs surface j < depthOf g nX xs surface i.
Proof.
  intros Hg Hl Hi Hj. unfold depthOf. rewrite Hi, Nat.eqb_refl. destruct (Nat.eqb_spec (xs + j) (nX + 1)); [lia|].
  assert (E : last g 0 = g.[nX + 1]).
  { clear -Hl. destruct (exists_last (l := g)) as (l & x & ->); [destruct g; [cbn in Hl; lia|discriminate]|]. rewrite last_last. rewrite app_length in Hl. cbn in Hl.
    rewrite app_nth2 by lia. replace (nX + 1 - length l)%nat with 0%nat by lia. reflexivity. }
  split; [rewrite E; lra|]. assert (M : forall a b, (a <= b < length g)%nat -> g.[a] <= g.[b]).
  { intros a b [H1 H2]. induction b as [|b IH]; [replace a with 0%nat by lia; lra|]. destruct (Nat.eq_dec a (S b)) as [->|]; [lra|]. assert (B := Hg b ltac:(lia)). specialize (IH ltac:(lia) ltac:(lia)). lra. }
  assert (A := M (xs + j + 1)%nat (nX + 1)%nat ltac:(lia)). assert (B := Hg (xs + j)%nat ltac:(lia)). replace (S (xs + j)) with (xs + j + 1)%nat in B by lia. lra.
Qed.
Example c80_depth_last_ok : depthOf [0; 1; 2; 3; 4] 3 1 1 3 = 2 /\ depthOf [0; 1; 2; 3; 4] 3 1 1 2 = 1.5.
Proof. unfold depthOf. cbn. lra. Qed.

(** On the process with the surface the temperature which selects the table of
    the trap mutation is the one of grid point 0, in front of the surface. *)
Theorem c80_surface_refuted g nX temps : increasing g -> length g = (nX + 2)%nat -> (1 <= nX)%nat ->
  2 / 100 < g.[2] - g.[1] -> (2 <= length temps)%nat ->
  surfaceTemp temps (map (depthOf g nX 0 0) (seq 0 (length temps))) = Some temps.[1] /\ loc g 1 < 0.
Proof.
  intros Hg Hl Hn Hs Ht. destruct temps as [|a [|b temps]]; cbn [length] in Ht; try lia.
  split.
  - assert (D0 : depthOf g nX 0 0 0 = (g.[1] + g.[0]) / 2 - g.[1]).
    { unfold depthOf. cbn [Nat.add]. destruct (Nat.eqb_spec 0 (nX + 1)); [lia|reflexivity]. }
    assert (D1 : depthOf g nX 0 0 1 = (g.[2] + g.[1]) / 2 - g.[1]).
    { unfold depthOf. cbn [Nat.add]. destruct (Nat.eqb_spec 1 (nX + 1)); [lia|reflexivity]. }
    cbn [length seq map surfaceTemp nth]. rewrite D0, D1.
    assert (H0 := Hg 0%nat ltac:(lia)). assert (H1 := Hg 1%nat ltac:(lia)).
    destruct (Rlt_dec (1 / 100) ((g.[1] + g.[0]) / 2 - g.[1])); [lra|].
    destruct (Rlt_dec (1 / 100) ((g.[2] + g.[1]) / 2 - g.[1])); [reflexivity|lra].
  - cbn [loc]. assert (H0 := Hg 0%nat ltac:(lia)). lra.
Qed.
Example c80_surface_refuted_ok :
  surfaceTemp [900; 910; 920; 930; 940] (map (depthOf [0; 1; 2; 3; 4] 3 0 0) (seq 0 5)) = Some 910.
Proof.
  cbn [seq map surfaceTemp]. unfold depthOf. cbn.
  destruct (Rlt_dec (1 / 100) ((1 + 0) / 2 - 1)); [lra|]. destruct (Rlt_dec (1 / 100) ((2 + 1) / 2 - 1)); [reflexivity|lra].
Qed.

(** With a surface which moved in two or three dimensions, a process all of
    whose points are in front of the surface reads behind the end of the
    temperatures. *)
Lemma inc_le g : increasing g -> forall b a, (a <= b < length g)%nat -> g.[a] <= g.[b].
Proof.
  intros Hg. induction b as [|b IH]; intros a H.
  - assert (a = 0)%nat as -> by lia. lra.
  - destruct (Nat.eq_dec a (S b)) as [->|]; [lra|]. assert (H1 := IH a ltac:(lia)). assert (H2 := Hg b ltac:(lia)). lra.
Qed.
Theorem c80_outside_refuted g nX xs surface temps : increasing g -> length g = (nX + 2)%nat -> (surface + 1 < length g)%nat ->
  (xs + length temps <= surface + 1)%nat ->
  surfaceTemp temps (map (depthOf g nX xs surface) (seq 0 (length temps))) = None.
Proof.
  intros Hg Hl Hs Hx.
  assert (D : forall n k ts, (k + n <= length temps)%nat -> length ts = n -> surfaceTemp ts (map (depthOf g nX xs surface) (seq k n)) = None).
  { induction n as [|n IH]; intros k [|t ts] Hk HL; cbn in HL; try lia; [reflexivity|]. cbn [seq map surfaceTemp].
    destruct (Rlt_dec (1 / 100) (depthOf g nX xs surface k)) as [H|_]; [exfalso|apply IH; lia].
    unfold depthOf in H. destruct (Nat.eqb_spec (xs + k) (nX + 1)); [lia|].
    assert (A := inc_le g Hg (surface + 1) (xs + k) ltac:(lia)). assert (B := inc_le g Hg (surface + 1) (xs + k + 1) ltac:(lia)). lra. }
  apply D; lia.
Qed.
Example c80_outside_refuted_ok : increasing [0; 1; 2; 3; 4; 5; 6; 7] /\
  surfaceTemp [900; 901; 902; 903] (map (depthOf [0; 1; 2; 3; 4; 5; 6; 7] 6 0 4) (seq 0 4)) = None.
Proof.
  assert (I : increasing [0; 1; 2; 3; 4; 5; 6; 7]).
  { intros i H. cbn [length] in H. do 7 (destruct i as [|i]; [cbn; lra|]). lia. }
  split; [exact I|]. apply (c80_outside_refuted [0; 1; 2; 3; 4; 5; 6; 7] 6 0 4 [900; 901; 902; 903]); cbn [length]; auto; lia.
Qed.

(** ** Tables of the trap mutation *)

(** At every temperature, the number of vacancies of each of the seven helium
    sizes is one for which reactions were created, or none, and then the
    reaction has no depth in the material; every created reaction is used
    at some temperature. *)
Theorem c80_tables f : forall l, (l < 7)%nat ->
  (forall T, let v := nth l (tsizes (updateData f T)) 0%Z in
     (v = 0%Z /\ nth l (allVSizes f) [] = [] /\ (tdepths (updateData f T)).[l] < 0) \/
     (In v (nth l (allVSizes f) []) /\ (1 <= v)%Z /\ 1 / 2 <= (tdepths (updateData f T)).[l] <= 3 / 2)) /\
  (forall v, In v (nth l (allVSizes f) []) -> exists T, nth l (tsizes (updateData f T)) 0%Z = v).
Proof.
  assert (C : forall A (P : A -> Prop) x y, P x -> P y -> forall T, P (if Rlt_dec T 1066.5 then x else y)).
  { intros. destruct (Rlt_dec T 1066.5); assumption. }
  assert (Lo : forall f, updateData f 900 = updateData f 900 /\ (if Rlt_dec 900 1066.5 then true else false) = true).
  { intros. split; [reflexivity|]. destruct (Rlt_dec 900 1066.5); [reflexivity|lra]. }
  assert (Hi : (if Rlt_dec 1200 1066.5 then true else false) = false).
  { destruct (Rlt_dec 1200 1066.5); [lra|reflexivity]. }
  assert (Lw : (if Rlt_dec 900 1066.5 then true else false) = true) by apply (Lo f).
  clear Lo C. intros l Hl. split.
  - intros T. cbv zeta. unfold updateData. destruct (Rlt_dec T 1066.5), f;
      do 7 (destruct l as [|l]; [cbn; first [left; repeat split; lra | right; split; [tauto|split; [lia|lra]]]|]); lia.
  - intros v Hv. destruct f; do 7 (destruct l as [|l]; [cbn in Hv; intuition (subst v;
      first [ exists 900; unfold updateData; rewrite Lw; reflexivity | exists 1200; unfold updateData; rewrite Hi; reflexivity ])|]); lia.
Qed.
Example c80_tables_ok : nth 4 (allVSizes W100) [] = [1; 2]%Z.
Proof. reflexivity. Qed.

(** A gradient gives every point behind the surface a temperature between those
    of the surface and of the bulk, and a position which is its depth over the
    thickness; the points in front of the surface are extrapolated. *)
Theorem c80_gradient g nX e surface bulk c t : increasing g -> length g = (nX + 2)%nat -> (1 <= nX)%nat -> (e <= nX + 1)%nat ->
  let T := gradientHandler surface bulk c (fraction g e) t in
  T = surface + (bulk - surface) * (loc g e / (g.[nX + 1] - g.[1])) /\
  (surface < bulk -> ((2 <= e)%nat -> surface < T < bulk) /\ ((e <= 1)%nat -> T < surface)).
Proof.
  intros Hg Hl Hn He T.
  assert (LA : last g 0 = g.[nX + 1]).
  { destruct (exists_last (l := g)) as (q & a & ->); [intros ->; cbn in Hl; lia|]. rewrite last_last. rewrite app_length in Hl. cbn [length] in Hl.
    rewrite app_nth2 by lia. replace (nX + 1 - length q)%nat with 0%nat by lia. reflexivity. }
  assert (E : T = surface + (bulk - surface) * (loc g e / (g.[nX + 1] - g.[1]))).
  { unfold T, gradientHandler, fraction, loc. rewrite LA. destruct e; reflexivity. }
  split; [exact E|]. intros SB. rewrite E. assert (I := inc_le g Hg).
  assert (W : 0 < g.[nX + 1] - g.[1]).
  { assert (A := I (nX + 1)%nat 2%nat ltac:(lia)). assert (B := Hg 1%nat ltac:(lia)). lra. }
  set (L := g.[nX + 1] - g.[1]) in *. assert (IL := Rinv_0_lt_compat L W). split; intros H.
  - destruct e as [|[|e]]; try lia. cbn [loc].
    assert (A := I (S e) 1%nat ltac:(lia)). assert (B := Hg (S e) ltac:(lia)). assert (D := I (nX + 1)%nat (S (S e)) ltac:(lia)).
    set (x := (g.[S e] + g.[S (S e)]) / 2 - g.[1]). assert (X : 0 < x < L) by (unfold x, L; lra).
    assert (Q : 0 < x / L < 1).
    { split; [apply Rmult_lt_0_compat; lra|]. apply Rmult_lt_reg_r with L; [lra|]. unfold Rdiv. rewrite Rmult_assoc, Rinv_l by lra. lra. }
    nra.
  - assert (X : loc g e < 0).
    { assert (A := Hg 0%nat ltac:(lia)). destruct e as [|[|e]]; try lia; cbn [loc]; lra. }
    assert (Q : loc g e / L < 0) by (unfold Rdiv; nra). nra.
Qed.
Example c80_gradient_ok : gradientHandler 1000 500 0 (fraction [0; 1; 2; 3; 5] 3) 7 = 1000 + (500 - 1000) * (3 / 2 / 4).
Proof. unfold gradientHandler, fraction. cbn. field. Qed.

Print Assumptions c80_zero. Print Assumptions c80_zero_constant. Print Assumptions c80_zero_history_refuted. Print Assumptions c80_zero_restart.
Print Assumptions c80_zero_vector. Print Assumptions c80_line. Print Assumptions c80_line_repeat. Print Assumptions c80_columns. Print Assumptions c80_columns_refuted.
Print Assumptions c80_columns_repeat_refuted. Print Assumptions c80_depth_refuted. Print Assumptions c80_surface_refuted. Print Assumptions c80_outside_refuted. Print Assumptions c80_tables.
Print Assumptions c80_gradient. Print Assumptions c80_zero_start. Print Assumptions c80_columns_still. Print Assumptions c80_depth_last.
