From Verif Require Export ProfileModel.
Set Implicit Arguments.
Open Scope R_scope.

(** A table as a list of knots. *)
Notation table := (list (R * R)).
Definition times (l : table) := map fst l.
Definition vals (l : table) := map snd l.
Fixpoint incr (l : table) : Prop :=
  match l with a :: ((b :: _) as t) => fst a < fst b /\ incr t | _ => True end.

(** Closed form: first value plus the slopes times the clamped time. *)
Definition clamp (a b t : R) : R := Rmin b (Rmax a t).
Fixpoint pl (l : table) (t : R) : R :=
  match l with
  | a :: ((b :: _) as r) => (snd b - snd a) / (fst b - fst a) * (clamp (fst a) (fst b) t - fst a) + (pl r t - snd b) + snd a
  | [a] => snd a
  | [] => 0
  end.

Lemma pl_cons a b r t : pl (a :: b :: r) t = (snd b - snd a) / (fst b - fst a) * (clamp (fst a) (fst b) t - fst a) + (pl (b :: r) t - snd b) + snd a.
Proof. reflexivity. Qed.
Lemma clamp_lo a b t : a <= b -> t <= a -> clamp a b t = a.
Proof. intros H H0. unfold clamp. rewrite Rmax_left by exact H0. apply Rmin_right. exact H. Qed.
Lemma clamp_hi a b t : b <= t -> clamp a b t = b.
Proof. intros H. unfold clamp. apply Rmin_left. eapply Rle_trans; [exact H|apply Rmax_r]. Qed.
Lemma clamp_mid a b t : a <= t <= b -> clamp a b t = t.
Proof. intros [H H0]. unfold clamp. rewrite Rmax_right by exact H. apply Rmin_right. exact H0. Qed.
Lemma clamp_lip a b t s : t <= s -> 0 <= clamp a b s - clamp a b t <= s - t.
Proof. intros H. unfold clamp, Rmin, Rmax. repeat destruct Rle_dec; lra. Qed.

Lemma pl_lo a r t : incr (a :: r) -> t <= fst a -> pl (a :: r) t = snd a.
Proof.
  revert a. induction r as [|b r IH]; intros a; [reflexivity|]. intros [H1 H2] H3. rewrite pl_cons, clamp_lo by lra.
  rewrite (IH b) by (try exact H2; lra). field. lra.
Qed.
Lemma pl_step a b r t : incr (a :: b :: r) -> fst b <= t -> pl (a :: b :: r) t = pl (b :: r) t.
Proof. intros [H1 H2] H3. rewrite pl_cons, clamp_hi by exact H3. field. lra. Qed.
Lemma pl_mid a b r t : incr (a :: b :: r) -> fst a <= t <= fst b ->
  pl (a :: b :: r) t = snd a + (snd b - snd a) * (t - fst a) / (fst b - fst a).
Proof.
  intros [H1 H2] H3. rewrite pl_cons, clamp_mid by exact H3. rewrite (@pl_lo b r) by (try exact H2; lra). field. lra.
Qed.
Lemma incr_last a r : incr (a :: r) -> fst a <= last (times (a :: r)) 0.
Proof.
  revert a. induction r as [|b r IH]; intros a H; [cbn; lra|]. destruct H as [H1 H2]. specialize (IH b H2).
  change (last (times (a :: b :: r)) 0) with (last (times (b :: r)) 0). lra.
Qed.
Lemma pl_hi l t : l <> [] -> incr l -> last (times l) 0 <= t -> pl l t = last (vals l) 0.
Proof.
  induction l as [|a l IH]; [congruence|]. intros _ I H. destruct l as [|b r]; [reflexivity|].
  assert (Hb : fst b <= last (times (b :: r)) 0) by (apply incr_last; apply I).
  rewrite pl_step; [|exact I|]. 2:{ change (last (times (a :: b :: r)) 0) with (last (times (b :: r)) 0) in H. lra. }
  change (last (vals (a :: b :: r)) 0) with (last (vals (b :: r)) 0). apply IH; [congruence|apply I|exact H].
Qed.

Lemma loop_pl l t : incr l -> match l with a :: _ => fst a < t | [] => False end -> t < last (times l) 0 ->
  loop (times l) (vals l) t = Some (pl l t).
Proof.
  induction l as [|a l IH]; [contradiction|]. intros I H H0. destruct l as [|b r]; [cbn in H0; lra|].
  change (last (times (a :: b :: r)) 0) with (last (times (b :: r)) 0) in H0. cbn [times vals map loop].
  destruct (Rlt_dec t (fst a)) as [L|L]; [lra|]. destruct (Rlt_dec (fst b) t) as [L1|L1].
  - rewrite pl_step by (try exact I; lra). apply IH; [apply I|exact L1|exact H0].
  - rewrite pl_mid by (try exact I; lra). unfold rdiv. destruct (Req_EM_T (fst b - fst a) 0) as [E|E]; [exfalso; destruct I; lra|].
    reflexivity.
Qed.
Lemma nth_error_lastv l : l <> [] -> nth_error (vals l) (length (times l) - 1) = Some (last (vals l) 0).
Proof.
  intros N. assert (E : length (times l) = length (vals l)) by (unfold times, vals; rewrite !map_length; reflexivity). rewrite E.
  assert (V : vals l <> []) by (destruct l; [congruence|discriminate]). destruct (exists_last V) as (l' & x & ->).
  rewrite last_last, app_length, nth_error_app2 by (cbn; lia). cbn. replace (length l' + 1 - 1 - length l')%nat with 0%nat by lia. reflexivity.
Qed.
Theorem lookup_pl l t : l <> [] -> incr l -> lookup (times l) (vals l) t = Some (pl l t).
Proof.
  intros N I. destruct l as [|a r]; [congruence|]. unfold lookup. cbn [times map]. fold (times r).
  destruct (Rle_dec t (fst a)) as [L|L].
  - rewrite pl_lo by (try exact I; lra). reflexivity.
  - change (fst a :: times r) with (times (a :: r)). destruct (Rle_dec (last (times (a :: r)) 0) t) as [L1|L1].
    + rewrite pl_hi by assumption. apply nth_error_lastv. exact N.
    + apply loop_pl; [exact I|cbn; lra|lra].
Qed.

(** ** Consequences of the closed form *)
Fixpoint vsum (l : table) : R := match l with a :: ((b :: _) as r) => Rabs ((snd b - snd a) / (fst b - fst a)) + vsum r | _ => 0 end.
Lemma pl_lip l t s : incr l -> t <= s -> Rabs (pl l s - pl l t) <= vsum l * (s - t).
Proof.
  intros I H. induction l as [|a l IH]; [cbn; rewrite Rminus_0_r, Rabs_R0; lra|]. destruct l as [|b r]; [cbn; rewrite Rminus_eq_0, Rabs_R0; lra|].
  rewrite !pl_cons. destruct (@clamp_lip (fst a) (fst b) t s H) as [C1 C2].
  replace ((snd b - snd a) / (fst b - fst a) * (clamp (fst a) (fst b) s - fst a) + (pl (b :: r) s - snd b) + snd a - ((snd b - snd a) / (fst b - fst a) * (clamp (fst a) (fst b) t - fst a) + (pl (b :: r) t - snd b) + snd a))
    with ((snd b - snd a) / (fst b - fst a) * (clamp (fst a) (fst b) s - clamp (fst a) (fst b) t) + (pl (b :: r) s - pl (b :: r) t)) by ring.
  eapply Rle_trans; [apply Rabs_triang|]. rewrite Rabs_mult, (Rabs_pos_eq (clamp _ _ s - _)) by exact C1.
  specialize (IH (proj2 I)). cbn [vsum].
  change ((fix vsum (l : table) : R := match l with a :: ((b :: _) as r) => Rabs ((snd b - snd a) / (fst b - fst a)) + vsum r | _ => 0 end) (b :: r)) with (vsum (b :: r)).
  assert (P : 0 <= Rabs ((snd b - snd a) / (fst b - fst a))) by apply Rabs_pos.
  rewrite Rmult_plus_distr_r. apply Rplus_le_compat; [|exact IH]. apply Rmult_le_compat_l; assumption.
Qed.
Lemma vsum_pos l : 0 <= vsum l.
Proof. induction l as [|a l IH]; [cbn; lra|]. destruct l as [|b r]; [cbn; lra|]. cbn [vsum]. pose proof (Rabs_pos ((snd b - snd a) / (fst b - fst a))). cbn in IH. lra. Qed.
Lemma pl_cont l t : incr l -> continuity_pt (pl l) t.
Proof.
  intros I. intros eps He. exists (eps / (vsum l + 1)). pose proof (vsum_pos l) as V. split.
  { apply Rdiv_lt_0_compat; lra. }
  intros x [_ H]. cbn in *. unfold R_dist in *.
  assert (B : Rabs (pl l x - pl l t) <= vsum l * Rabs (x - t)).
  { destruct (Rle_or_lt t x) as [L|L].
    - rewrite (Rabs_pos_eq (x - t)) by lra. apply pl_lip; assumption.
    - rewrite Rabs_minus_sym, (Rabs_minus_sym x t), (Rabs_pos_eq (t - x)) by lra. apply pl_lip; [exact I|lra]. }
  assert (Rabs (x - t) * (vsum l + 1) < eps).
  { apply (Rmult_lt_compat_r (vsum l + 1)) in H; [|lra]. unfold Rdiv in H. rewrite Rmult_assoc, Rinv_l, Rmult_1_r in H by lra. exact H. }
  pose proof (Rabs_pos (x - t)). nra.
Qed.
Fixpoint nondecr (l : table) : Prop := match l with a :: ((b :: _) as t) => snd a <= snd b /\ nondecr t | _ => True end.
Lemma pl_mono l t s : incr l -> nondecr l -> t <= s -> pl l t <= pl l s.
Proof.
  intros I N H. induction l as [|a l IH]; [cbn; lra|]. destruct l as [|b r]; [cbn; lra|].
  rewrite !pl_cons. destruct (@clamp_lip (fst a) (fst b) t s H) as [C1 C2]. destruct I as [I1 I2]. destruct N as [N1 N2].
  specialize (IH I2 N2). assert (S : 0 <= (snd b - snd a) / (fst b - fst a)). { apply Rmult_le_pos; [lra|]. left. apply Rinv_0_lt_compat. lra. }
  nra.
Qed.
(** Between two neighbouring knots. *)
Lemma pl_between l1 a b l2 t : incr (l1 ++ a :: b :: l2) -> fst a <= t <= fst b ->
  pl (l1 ++ a :: b :: l2) t = snd a + (snd b - snd a) * (t - fst a) / (fst b - fst a).
Proof.
  induction l1 as [|x l1 IH]; intros I H; [apply pl_mid; assumption|]. destruct l1 as [|y l1].
  - cbn [app] in *. rewrite pl_step; [apply IH; [apply I|exact H]|exact I|apply H].
  - cbn [app] in *. destruct I as [I1 I2].
    assert (L : fst y <= fst a).
    { clear - I2. revert y I2. induction l1 as [|z l1 IH]; intros y I; [destruct I; cbn in *; lra|].
      cbn [app] in I. destruct I as [I3 I4]. specialize (IH z I4). lra. }
    rewrite pl_step; [apply IH; [exact I2|exact H]|split; assumption|lra].
Qed.
(** Any table, sorted or not: inside the loop an interval entered from below is found. *)
Lemma loop_any tm vs t : length tm = length vs -> match tm with ta :: _ => ta < t | [] => False end -> t < last tm 0 ->
  exists l1 ta tb l2 w1 va vb w2, tm = l1 ++ ta :: tb :: l2 /\ vs = w1 ++ va :: vb :: w2 /\ length l1 = length w1 /\
    ta < t <= tb /\ loop tm vs t = Some (va + (vb - va) * (t - ta) / (tb - ta)).
Proof.
  revert vs. induction tm as [|ta tm IH]; [contradiction|]. intros vs HL H H0. destruct tm as [|tb tm]; [cbn in H0; lra|].
  destruct vs as [|va vs]; [discriminate|]. destruct vs as [|vb vs]; [discriminate|].
  destruct (Rlt_dec tb t) as [L|L].
  - destruct (IH (vb :: vs)) as (l1 & a & b & l2 & w1 & v & w & w2 & E1 & E2 & E3 & E4 & E5); [injection HL as HL; cbn; lia|exact L|exact H0|].
    exists (ta :: l1), a, b, l2, (va :: w1), v, w, w2. rewrite E1, E2. repeat split; try reflexivity; try apply E4; [cbn; lia|].
    rewrite <- E1, <- E2. cbn [loop]. destruct (Rlt_dec t ta); [lra|]. destruct (Rlt_dec tb t); [|lra]. exact E5.
  - exists [], ta, tb, tm, [], va, vb, vs. repeat split; try lra. cbn [loop]. destruct (Rlt_dec t ta); [lra|]. destruct (Rlt_dec tb t); [lra|].
    unfold rdiv. destruct (Req_EM_T (tb - ta) 0); [lra|]. reflexivity.
Qed.
