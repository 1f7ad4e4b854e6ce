(** Compressed rows and reaction storage: proofs. *)
From Verif Require Export ConnProofs.
Set Implicit Arguments.

Lemma findFrom_some e c pos fuel p : findFrom e c pos fuel = Some p -> pos <= p < pos + fuel /\ e p = c.
Proof.
  revert pos. induction fuel as [|f IH]; intros pos; cbn; [discriminate|].
  destruct (Nat.eqb_spec (e pos) c) as [E|].
  - intros [= <-]. split; [lia|exact E].
  - intros H. apply IH in H. split; [lia|tauto].
Qed.
Lemma findFrom_none e c pos fuel : findFrom e c pos fuel = None -> forall p, pos <= p < pos + fuel -> e p <> c.
Proof.
  revert pos. induction fuel as [|f IH]; intros pos; cbn; [intros; lia|].
  destruct (Nat.eqb_spec (e pos) c) as [E|]; [discriminate|].
  intros H p Hp. destruct (Nat.eq_dec p pos) as [->|]; [assumption|]. apply (IH _ H). lia.
Qed.

Lemma crsMap_cons l rs r : crsMap (l :: rs) (S r) = length l + crsMap rs r.
Proof.
  unfold crsMap. induction r as [|r IH]; [cbn; lia|].
  change (scan (fun i => length (nth i (l :: rs) [])) (S (S r)))
    with (scan (fun i => length (nth i (l :: rs) [])) (S r) + length (nth r rs [])).
  rewrite IH. cbn [scan]. lia.
Qed.
Lemma crs_nth rs r j : r < length rs -> j < length (nth r rs []) ->
  nth (crsMap rs r + j) (crsEntries rs) 0 = nth j (nth r rs []) 0.
Proof.
  unfold crsEntries. revert r. induction rs as [|l rs IH]; intros r Hr Hj; [cbn in Hr; lia|].
  destruct r as [|r].
  - cbn in *. rewrite app_nth1 by exact Hj. reflexivity.
  - rewrite crsMap_cons. cbn [concat nth]. rewrite app_nth2 by lia.
    replace (length l + crsMap rs r + j - length l) with (crsMap rs r + j) by lia. apply IH; cbn in *; lia.
Qed.
Lemma crsMap_S rs r : crsMap rs (S r) = crsMap rs r + length (nth r rs []).
Proof. reflexivity. Qed.

Lemma getPosition_some rs r c p : r < length rs -> getPosition rs r c = Some p ->
  crsMap rs r <= p < crsMap rs (S r) /\ In c (nth r rs []) /\ nth p (crsEntries rs) 0 = c.
Proof.
  intros Hr H. apply findFrom_some in H as [Hp E]. rewrite crsMap_S in *.
  split; [lia|]. split; [|exact E]. replace p with (crsMap rs r + (p - crsMap rs r)) in E by lia.
  rewrite crs_nth in E by lia. rewrite <- E. apply nth_In. lia.
Qed.
Lemma getPosition_In rs r c : r < length rs -> In c (nth r rs []) -> exists p, getPosition rs r c = Some p.
Proof.
  intros Hr H. destruct (getPosition rs r c) as [p|] eqn:E; [eauto|]. exfalso.
  apply (In_nth _ _ 0) in H as (j & Hj & Ej).
  apply (@findFrom_none _ _ _ _ E (crsMap rs r + j)); [rewrite crsMap_S; lia|].
  rewrite crs_nth by assumption. exact Ej.
Qed.
Lemma getPosition_inj rs r c r' c' p : r < length rs -> r' < length rs ->
  getPosition rs r c = Some p -> getPosition rs r' c' = Some p -> r = r' /\ c = c'.
Proof.
  intros Hr Hr' H H'. apply getPosition_some in H as (P1 & _ & E1); [|exact Hr].
  apply getPosition_some in H' as (P2 & _ & E2); [|exact Hr']. split; [|congruence].
  rewrite !crsMap_S in *.
  destruct (@scan_disjoint (fun i => length (nth i rs [])) r r' (p - crsMap rs r) (p - crsMap rs r')); try lia.
  fold (crsMap rs r). fold (crsMap rs r'). lia.
Qed.

(** * Reaction storage *)
Section STORE.
Variable P : Type.
Variables (nrow : nat) (ths : list (list (sop P))).
Let all : list (sop P) := concat ths.
Let cnt := cntOf all.
Let rm := scan cnt.
Let N := rm nrow.
Hypothesis Hrows : forall r p, In (r, p) all -> r < nrow.

(** Payloads already copied into row r; of threads about to copy; still to do. *)
Definition copied (m : smem P) (r : nat) : list P :=
  flat_map (fun j => match m (rm r + j) with Some (Some p) => [p] | _ => [] end) (seq 0 (cnt r)).
Definition tpend (t : sthread P) (r : nat) : list P :=
  match shere t, stodo t with SWrite _, (r', p) :: _ => if r' =? r then [p] else [] | _, _ => [] end.
Definition ttodo (t : sthread P) (r : nat) : list P :=
  match shere t with SWrite _ => colsOf (tl (stodo t)) r | STry _ => colsOf (stodo t) r end.
Definition pend (ts : list (sthread P)) r := flat_map (fun t => tpend t r) ts.
Definition rest (ts : list (sthread P)) r := flat_map (fun t => ttodo t r) ts.

Definition srowInv (s : sstate P) (r : nat) : Prop :=
  Permutation (copied (fst s) r ++ pend (snd s) r ++ rest (snd s) r) (colsOf all r) /\
  exists k, k + length (rest (snd s) r) = cnt r /\
    (forall j, j < k -> fst s (rm r + j) <> None) /\ (forall j, k <= j < cnt r -> fst s (rm r + j) = None).

Definition sthInv (m : smem P) (t : sthread P) : Prop :=
  incl (stodo t) all /\
  match stodo t with
  | [] => exists i, shere t = STry i
  | (r, p) :: _ =>
      match shere t with
      | STry id => exists j, id = rm r + j /\ j <= cnt r /\ forall j', j' < j -> m (rm r + j') <> None
      | SWrite id => exists j, id = rm r + j /\ j < cnt r /\ m id = Some None
      end
  end.
(** No two threads copy into the same cell. *)
Definition writer (t : sthread P) : option nat :=
  match stodo t, shere t with _ :: _, SWrite id => Some id | _, _ => None end.
Definition distinctW (ts : list (sthread P)) : Prop :=
  forall a b ta tb id, nth_error ts a = Some ta -> nth_error ts b = Some tb ->
    writer ta = Some id -> writer tb = Some id -> a = b.

Definition sinv (s : sstate P) : Prop :=
  (forall r, r < nrow -> srowInv s r) /\ (forall t, In t (snd s) -> sthInv (fst s) t) /\ distinctW (snd s).

Lemma nth_setnth A (l : list A) i j x : nth_error (setnth l i x) j =
  if j =? i then (if i <? length l then Some x else None) else nth_error l j.
Proof.
  revert i j. induction l as [|a l IH]; intros [|i] [|j]; cbn; try reflexivity.
  - destruct (_ =? _); reflexivity.
  - rewrite IH. reflexivity.
Qed.

Lemma flat_setnth A (f : sthread P -> list A) ts i t t' : nth_error ts i = Some t ->
  exists l1 l2, flat_map f ts = l1 ++ f t ++ l2 /\ flat_map f (setnth ts i t') = l1 ++ f t' ++ l2.
Proof.
  revert i. induction ts as [|a ts IH]; intros [|i]; cbn; try discriminate.
  - intros [= ->]. exists [], (flat_map f ts). split; reflexivity.
  - intros E. destruct (IH _ E) as (l1 & l2 & -> & ->). exists (f a ++ l1), l2. rewrite <- !app_assoc. split; reflexivity.
Qed.

Lemma inN' r j : r < nrow -> j < cnt r -> rm r + j < N.
Proof. intros Hr Hj. apply (scan_mono cnt) in Hr. cbn in Hr. unfold N, rm. lia. Qed.

Lemma colsOf_cons r0 p (l : list (sop P)) r : colsOf ((r0, p) :: l) r = if r0 =? r then p :: colsOf l r else colsOf l r.
Proof. unfold colsOf. cbn [filter fst]. destruct (r0 =? r); reflexivity. Qed.

Lemma sload_todo l r : ttodo (sload rm l) r = colsOf l r.
Proof. destruct l as [|[r0 p] l]; reflexivity. Qed.
Lemma sload_pend l r : tpend (sload rm l) r = [].
Proof. destruct l as [|[r0 p] l]; reflexivity. Qed.
Lemma sload_writer l : writer (sload rm l) = None.
Proof. destruct l as [|[r0 p] l]; reflexivity. Qed.
Lemma sload_inv m l : incl l all -> sthInv m (sload rm l).
Proof.
  intros H. split; [destruct l as [|[r p] l]; exact H|].
  destruct l as [|[r p] l]; cbn; [eauto|].
  exists 0. split; [lia|]. split; [lia|]. intros; lia.
Qed.

(** Claiming a cell does not change what was copied. *)
Lemma copied_claim m i r : m i = None -> copied (upd m i (Some None)) r = copied m r.
Proof.
  intros H. unfold copied. apply flat_map_ext. intros j. unfold upd.
  destruct (Nat.eqb_spec (rm r + j) i) as [->|]; [rewrite H|]; reflexivity.
Qed.
Lemma copied_write m r0 j0 p r : j0 < cnt r0 -> m (rm r0 + j0) = Some None ->
  Permutation (copied (upd m (rm r0 + j0) (Some (Some p))) r) ((if r0 =? r then [p] else []) ++ copied m r).
Proof.
  intros Hj Hm. unfold copied.
  assert (G : forall n s, s + n <= cnt r ->
    Permutation (flat_map (fun j => match upd m (rm r0 + j0) (Some (Some p)) (rm r + j) with Some (Some p) => [p] | _ => [] end) (seq s n))
      ((if (r0 =? r) && (s <=? j0) && (j0 <? s + n) then [p] else []) ++
        flat_map (fun j => match m (rm r + j) with Some (Some p) => [p] | _ => [] end) (seq s n))).
  { induction n as [|n IH]; intros s Hs; cbn [seq flat_map].
    - replace ((r0 =? r) && (s <=? j0) && (j0 <? s + 0)) with false; [reflexivity|].
      symmetry. destruct (r0 =? r), (Nat.leb_spec s j0), (Nat.ltb_spec j0 (s + 0)); cbn; try reflexivity; lia.
    - rewrite IH by lia. unfold upd at 1.
      destruct (Nat.eqb_spec (rm r + s) (rm r0 + j0)) as [E|Hne].
      + destruct (@scan_disjoint cnt r r0 s j0 ltac:(lia) Hj E) as [-> ->]. rewrite Hm, Nat.eqb_refl.
        replace (S j0 <=? j0) with false by (symmetry; apply Nat.leb_gt; lia).
        replace (j0 <=? j0) with true by (symmetry; apply Nat.leb_le; lia).
        replace (j0 <? j0 + S n) with true by (symmetry; apply Nat.ltb_lt; lia). cbn [andb]. reflexivity.
      + replace ((r0 =? r) && (s <=? j0) && (j0 <? s + S n)) with ((r0 =? r) && (S s <=? j0) && (j0 <? S s + n)).
        { set (x := if _ : bool then [p] else []). rewrite app_assoc, (Permutation_app_comm _ x), <- app_assoc. reflexivity. }
        destruct (Nat.eqb_spec r0 r) as [<-|]; [|reflexivity].
        destruct (Nat.leb_spec (S s) j0), (Nat.leb_spec s j0), (Nat.ltb_spec j0 (S s + n)), (Nat.ltb_spec j0 (s + S n)); cbn; try reflexivity; lia. }
  rewrite G by lia.
  replace ((r0 =? r) && (0 <=? j0) && (j0 <? 0 + cnt r)) with (r0 =? r); [reflexivity|].
  destruct (Nat.eqb_spec r0 r) as [<-|]; [|reflexivity]. symmetry. cbn. apply Nat.ltb_lt. exact Hj.
Qed.

Lemma sstep_inv s i : sinv s -> exists s', sstep N rm s i = Some s' /\ sinv s'.
Proof.
  intros (HR & HT & HD). unfold sstep. destruct (nth_error (snd s) i) as [t|] eqn:Ei.
  2:{ exists s. split; [reflexivity|]. split; [|split]; assumption. }
  pose proof (HT t (nth_error_In _ _ Ei)) as [Hincl Ht]. unfold ststep.
  assert (Hlen : i < length (snd s)) by (apply nth_error_Some; congruence).
  assert (DW : forall t', (forall id, writer t' = Some id -> forall b tb, b <> i -> nth_error (snd s) b = Some tb -> writer tb <> Some id) ->
     distinctW (setnth (snd s) i t')).
  { intros t' H' a b ta tb id. rewrite !nth_setnth. replace (i <? length (snd s)) with true by (symmetry; apply Nat.ltb_lt; exact Hlen).
    destruct (Nat.eqb_spec a i) as [->|Ha], (Nat.eqb_spec b i) as [->|Hb]; intros E1 E2 W1 W2; try reflexivity.
    - injection E1 as <-. exfalso. eapply (H' id W1 b); eauto.
    - injection E2 as <-. exfalso. eapply (H' id W2 a); eauto.
    - eapply HD; eauto. }
  destruct t as [td h]. cbn [stodo shere] in *. destruct td as [|[r p] tl0].
  { exists (fst s, setnth (snd s) i (STh [] h)). split; [reflexivity|].
    assert (ES : setnth (snd s) i (STh [] h) = snd s).
    { clear -Ei. revert i Ei. induction (snd s) as [|a l IH]; intros [|i]; cbn; try discriminate; intros E; [congruence|].
      f_equal. apply IH. exact E. }
    rewrite ES. rewrite <- surjective_pairing. split; [|split]; assumption. }
  assert (Hin : In (r, p) all) by (apply Hincl; left; reflexivity).
  assert (Hr : r < nrow) by (eapply Hrows; eauto).
  assert (Htl : incl tl0 all) by (intros x Hx; apply Hincl; right; exact Hx).
  destruct h as [id|id].
  - (* compare-exchange *)
    destruct Ht as (j & -> & Hj & Hp).
    destruct (HR r Hr) as (HP & k & Hk & Hs1 & Hs2).
    assert (Hrest : 0 < length (rest (snd s) r)).
    { unfold rest. destruct (flat_setnth (fun t => ttodo t r) (snd s) i (STh ((r, p) :: tl0) (STry (rm r + j))) Ei) as (l1 & l2 & E & _).
      rewrite E, !app_length. cbn [ttodo shere stodo]. rewrite colsOf_cons, Nat.eqb_refl. cbn. lia. }
    assert (Hjk : j <= k).
    { destruct (Nat.le_gt_cases j k); [assumption|]. exfalso. apply (Hp k H). apply Hs2. lia. }
    assert (HN : (rm r + j <? N) = true) by (apply Nat.ltb_lt, inN'; [assumption|lia]).
    rewrite HN. destruct (fst s (rm r + j)) as [v|] eqn:Em.
    + eexists. split; [reflexivity|]. split; [|split]; cbn [fst snd].
      * intros r' Hr'. destruct (HR r' Hr') as (HP' & k' & Hk' & Hs1' & Hs2').
        destruct (flat_setnth (fun t => ttodo t r') (snd s) i (STh ((r, p) :: tl0) (STry (S (rm r + j)))) Ei) as (l1 & l2 & E1 & E2).
        destruct (flat_setnth (fun t => tpend t r') (snd s) i (STh ((r, p) :: tl0) (STry (S (rm r + j)))) Ei) as (l3 & l4 & E3 & E4).
        cbn [ttodo tpend shere stodo] in *. unfold srowInv, pend, rest in *. cbn [fst snd]. rewrite E2, E4. rewrite E1, E3 in *.
        split; [exact HP'|]. exists k'. split; [exact Hk'|]. split; assumption.
      * intros t' Ht'. apply setnth_In in Ht' as [->|Ht']; [|apply HT; exact Ht'].
        split; [exact Hincl|]. cbn. exists (S j). split; [lia|].
        assert (j < k).
        { destruct (Nat.eq_dec j k) as [->|]; [|lia]. exfalso. rewrite Hs2 in Em by lia. discriminate. }
        split; [lia|]. intros j' Hj'. destruct (Nat.eq_dec j' j) as [->|]; [congruence|]. apply Hp. lia.
      * apply DW. cbn. discriminate.
    + assert (j = k) as ->.
      { destruct (Nat.eq_dec j k); [assumption|]. exfalso. apply (Hs1 j); [lia|exact Em]. }
      eexists. split; [reflexivity|]. split; [|split]; cbn [fst snd].
      * intros r' Hr'. destruct (HR r' Hr') as (HP' & k' & Hk' & Hs1' & Hs2').
        destruct (flat_setnth (fun t => ttodo t r') (snd s) i (STh ((r, p) :: tl0) (SWrite (rm r + k))) Ei) as (l1 & l2 & E1 & E2).
        destruct (flat_setnth (fun t => tpend t r') (snd s) i (STh ((r, p) :: tl0) (SWrite (rm r + k))) Ei) as (l3 & l4 & E3 & E4).
        cbn [ttodo tpend shere stodo tl] in *. unfold srowInv, pend, rest in *. cbn [fst snd]. rewrite E2, E4. rewrite E1, E3 in *.
        rewrite copied_claim by exact Em. rewrite colsOf_cons in *.
        destruct (Nat.eqb_spec r r') as [<-|Hne].
        -- split.
           ++ rewrite <- HP'. apply Permutation_app_head. cbn [app].
              rewrite <- !app_assoc. apply Permutation_app_head. cbn [app].
              rewrite !(app_assoc l4 l1). apply Permutation_middle.
           ++ exists (S k). rewrite !app_length in *. cbn [length] in *. 
              assert (k' = k).
              { rewrite E1, !app_length in Hk. cbn [length] in Hk. lia. }
              subst k'. split; [lia|]. split.
              ** intros j' Hj'. unfold upd. destruct (Nat.eqb_spec (rm r + j') (rm r + k)); [discriminate|]. apply Hs1. lia.
              ** intros j' Hj'. unfold upd. destruct (Nat.eqb_spec (rm r + j') (rm r + k)); [lia|]. apply Hs2. lia.
        -- split; [exact HP'|]. exists k'. split; [exact Hk'|]. split.
           ++ intros j' Hj'. unfold upd. destruct (_ =? _); [discriminate|]. apply Hs1'. exact Hj'.
           ++ intros j' Hj'. unfold upd. destruct (Nat.eqb_spec (rm r' + j') (rm r + k)) as [E|]; [|apply Hs2'; exact Hj'].
              destruct (@scan_disjoint cnt r' r j' k ltac:(lia) ltac:(lia) E). congruence.
      * intros t' Ht'. apply setnth_In in Ht' as [->|Ht'].
        -- split; [exact Hincl|]. cbn. exists k. split; [reflexivity|]. split; [lia|]. unfold upd. rewrite Nat.eqb_refl. reflexivity.
        -- destruct (HT t' Ht') as [Hi' Hst]. split; [exact Hi'|]. destruct (stodo t') as [|[r1 p1] l1]; [exact Hst|].
           destruct (shere t') as [id'|id'].
           ++ destruct Hst as (j' & -> & Hj' & Hq). exists j'. split; [reflexivity|]. split; [exact Hj'|].
              intros j2 Hj2. unfold upd. destruct (_ =? _); [discriminate|]. apply Hq. exact Hj2.
           ++ destruct Hst as (j' & -> & Hj' & Hq). exists j'. split; [reflexivity|]. split; [exact Hj'|].
              unfold upd. destruct (_ =? _); [reflexivity|exact Hq].
      * apply DW. cbn [writer stodo shere]. intros id' [= <-] b tb Hb Eb Wb.
        pose proof (HT tb (nth_error_In _ _ Eb)) as [_ Hst]. unfold writer in Wb.
        destruct (stodo tb) as [|[r1 p1] l1]; [discriminate|]. destruct (shere tb); [discriminate|].
        injection Wb as ->. destruct Hst as (j' & _ & _ & Hq). congruence.
  - (* copy *)
    destruct Ht as (j & -> & Hj & Hm).
    assert (HN : (rm r + j <? N) = true) by (apply Nat.ltb_lt, inN'; assumption).
    rewrite HN. eexists. split; [reflexivity|]. split; [|split]; cbn [fst snd].
    + intros r' Hr'. destruct (HR r' Hr') as (HP' & k' & Hk' & Hs1' & Hs2').
      destruct (flat_setnth (fun t => ttodo t r') (snd s) i (sload rm tl0) Ei) as (l1 & l2 & E1 & E2).
      destruct (flat_setnth (fun t => tpend t r') (snd s) i (sload rm tl0) Ei) as (l3 & l4 & E3 & E4).
      rewrite sload_todo in E2. rewrite sload_pend in E4.
      cbn [ttodo tpend shere stodo tl] in *. unfold srowInv, pend, rest in *. cbn [fst snd]. rewrite E2, E4. rewrite E1, E3 in *.
      split.
      * rewrite <- HP', (copied_write _ _ _ _ Hj Hm). cbn [app].
        destruct (r =? r'); cbn [app]; [|reflexivity].
        rewrite <- !app_assoc. cbn [app].
        rewrite !(app_assoc (copied (fst s) r') l3). apply Permutation_middle.
      * exists k'. split; [exact Hk'|]. split.
        -- intros j' Hj'. unfold upd. destruct (rm r' + j' =? rm r + j); [discriminate|]. apply Hs1'. exact Hj'.
        -- intros j' Hj'. unfold upd. destruct (Nat.eqb_spec (rm r' + j') (rm r + j)) as [E|]; [|apply Hs2'; exact Hj'].
           exfalso. rewrite <- E in Hm. rewrite Hs2' in Hm by exact Hj'. discriminate.
    + intros t' Ht'. pose proof Ht' as Ht''. apply In_nth_error in Ht' as (b & Eb). rewrite nth_setnth in Eb.
      destruct (Nat.eqb_spec b i) as [E0|Hb].
      * destruct (i <? _); [|discriminate]. injection Eb as <-. apply sload_inv. exact Htl.
      * pose proof (HT t' (nth_error_In _ _ Eb)) as [Hi' Hst]. split; [exact Hi'|].
        destruct (stodo t') as [|[r1 p1] l1] eqn:Est; [exact Hst|].
        destruct (shere t') as [id'|id'] eqn:Esh.
        -- destruct Hst as (j' & -> & Hj' & Hq). exists j'. split; [reflexivity|]. split; [exact Hj'|].
           intros j2 Hj2. unfold upd. destruct (_ =? _); [discriminate|]. apply Hq. exact Hj2.
        -- destruct Hst as (j' & -> & Hj' & Hq). exists j'. split; [reflexivity|]. split; [exact Hj'|].
           unfold upd. destruct (Nat.eqb_spec (rm r1 + j') (rm r + j)) as [E|]; [|exact Hq].
           exfalso. apply Hb. eapply (HD b i); [exact Eb|exact Ei| |].
           ++ unfold writer. rewrite Est, Esh. reflexivity.
           ++ cbn. rewrite E. reflexivity.
    + apply DW. rewrite sload_writer. discriminate.
Qed.

Lemma flat_map_map_nil A B C (f : A -> B) (g : B -> list C) l : (forall x, g (f x) = []) -> flat_map g (map f l) = [].
Proof. intros H. induction l as [|a l IH]; cbn; [reflexivity|]. rewrite H, IH. reflexivity. Qed.
Lemma flat_map_none A B (f : A -> list B) l : (forall x, f x = []) -> flat_map f l = [].
Proof. intros H. induction l as [|a l IH]; cbn; [reflexivity|]. rewrite H, IH. reflexivity. Qed.
Lemma flat_map_nil_in A B (f : A -> list B) l : (forall x, In x l -> f x = []) -> flat_map f l = [].
Proof. induction l as [|a l IH]; intros H; cbn; [reflexivity|]. rewrite (H a), IH; auto; [|left; reflexivity]. intros x Hx. apply H. right; exact Hx. Qed.
Lemma colsOf_app (a b : list (sop P)) r : colsOf (a ++ b) r = colsOf a r ++ colsOf b r.
Proof. unfold colsOf. rewrite filter_app, map_app. reflexivity. Qed.

Lemma sinit_rest (l : list (list (sop P))) r : rest (map (sload rm) l) r = colsOf (concat l) r.
Proof.
  unfold rest. induction l as [|a l IH]; cbn [map flat_map concat]; [reflexivity|].
  rewrite IH, sload_todo, colsOf_app. reflexivity.
Qed.

Lemma sinit_inv : sinv (sinit rm ths).
Proof.
  split; [|split].
  - intros r _. unfold srowInv, sinit. cbn [fst snd]. rewrite sinit_rest.
    unfold copied. rewrite flat_map_none by reflexivity.
    unfold pend. rewrite flat_map_map_nil by (intros; apply sload_pend). cbn [app].
    split; [reflexivity|]. exists 0. split; [|split; [intros; lia|reflexivity]].
    rewrite colsOf_length. reflexivity.
  - intros t Ht. cbn in Ht. apply in_map_iff in Ht as (l & <- & Hl). apply sload_inv.
    intros x Hx. apply in_concat. eauto.
  - intros a b ta tb id Ea Eb Wa Wb. cbn in Ea. apply nth_error_In in Ea. apply in_map_iff in Ea as (l & <- & _).
    rewrite sload_writer in Wa. discriminate.
Qed.

Lemma srun_inv sched s : sinv s -> exists s', srun N rm s sched = Some s' /\ sinv s'.
Proof.
  revert s. induction sched as [|i sched IH]; intros s H; cbn; [eauto|].
  destruct (sstep_inv i H) as (s' & -> & H'). apply IH. exact H'.
Qed.

(** When all threads are done every cell of row r holds a payload, and the row
    is a rearrangement of what was added to it. *)
Lemma store_final s : sinv s -> sfinished s -> forall r, r < nrow ->
  exists l, Permutation l (colsOf all r) /\
    forall j, j < cnt r -> fst s (rm r + j) = match nth_error l j with Some p => Some (Some p) | None => None end.
Proof.
  intros (HR & HT & _) Hf r Hr. destruct (HR r Hr) as (HP & k & Hk & Hs1 & Hs2).
  assert (ER : rest (snd s) r = []).
  { unfold rest. assert (G : forall t, In t (snd s) -> ttodo t r = []).
    { intros t Ht. unfold ttodo. rewrite (Hf t Ht). destruct (shere t); reflexivity. }
    apply flat_map_nil_in. exact G. }
  assert (EP : pend (snd s) r = []).
  { unfold pend. assert (G : forall t, In t (snd s) -> tpend t r = []).
    { intros t Ht. unfold tpend. rewrite (Hf t Ht). destruct (shere t); reflexivity. }
    apply flat_map_nil_in. exact G. }
  rewrite ER, EP in HP. cbn [app] in HP. rewrite app_nil_r in HP.
  exists (copied (fst s) r). split; [exact HP|].
  assert (HL : length (copied (fst s) r) = cnt r) by (rewrite (Permutation_length HP), colsOf_length; reflexivity).
  revert HL. unfold copied.
  assert (G : forall n a, length (flat_map (fun j => match fst s (rm r + j) with Some (Some p) => [p] | _ => [] end) (seq a n)) <= n).
  { induction n as [|n IH]; intros a; cbn [seq flat_map]; [apply le_n|]. rewrite app_length. specialize (IH (S a)).
    destruct (fst s (rm r + a)) as [[p|]|]; cbn; lia. }
  assert (G2 : forall n a, length (flat_map (fun j => match fst s (rm r + j) with Some (Some p) => [p] | _ => [] end) (seq a n)) = n ->
    forall j, j < n -> fst s (rm r + (a + j)) =
      match nth_error (flat_map (fun j => match fst s (rm r + j) with Some (Some p) => [p] | _ => [] end) (seq a n)) j with
      | Some p => Some (Some p) | None => None end).
  { induction n as [|n IH]; intros a HL j Hj; [lia|]. cbn [seq flat_map] in *. rewrite app_length in HL. specialize (G n (S a)).
    destruct (fst s (rm r + a)) as [[p|]|] eqn:E; cbn [length app nth_error] in *; try lia.
    destruct j as [|j]; [rewrite Nat.add_0_r; exact E|]. cbn [nth_error].
    rewrite <- (IH (S a)) by lia. f_equal. f_equal. lia. }
  intros HL j Hj. apply (G2 (cnt r) 0 HL j Hj).
Qed.

(** Termination. *)
Definition slistWork (l : list (sop P)) : nat := list_sum (map (fun o => S (cnt (fst o))) l).
Definition sthWork (t : sthread P) : nat :=
  match stodo t with
  | [] => 0
  | (r, _) :: rest => slistWork rest + match shere t with STry id => S (cnt r - (id - rm r)) | SWrite _ => 1 end
  end.
Fixpoint swork (ts : list (sthread P)) : nat := match ts with [] => 0 | t :: l => sthWork t + swork l end.
Lemma sload_work l : sthWork (sload rm l) = slistWork l.
Proof.
  destruct l as [|[r c] l]; [reflexivity|]. unfold sload, sthWork. cbn [stodo shere].
  rewrite Nat.sub_diag. change (slistWork ((r, c) :: l)) with (S (cnt r) + slistWork l). lia.
Qed.
Lemma swork_setnth ts i t t' : nth_error ts i = Some t -> sthWork t' < sthWork t -> swork (setnth ts i t') < swork ts.
Proof.
  revert i. induction ts as [|a ts IH]; intros [|i]; cbn; try discriminate.
  - intros [= ->] H. lia.
  - intros E H. specialize (IH _ E H). lia.
Qed.
Definition sbusy (s : sstate P) (i : nat) : bool :=
  match nth_error (snd s) i with Some (STh (_ :: _) _) => true | _ => false end.
Fixpoint seffective (s : sstate P) (sched : list nat) : nat :=
  match sched with
  | [] => 0
  | i :: l => (if sbusy s i then 1 else 0) + match sstep N rm s i with Some s' => seffective s' l | None => 0 end
  end.
Lemma sstep_work s i s' : sinv s -> sstep N rm s i = Some s' ->
  (if sbusy s i then 1 else 0) + swork (snd s') <= swork (snd s).
Proof.
  intros (HR & HT & HD). unfold sstep, sbusy. destruct (nth_error (snd s) i) as [t|] eqn:Ei.
  2:{ intros [= <-]. lia. }
  pose proof (HT t (nth_error_In _ _ Ei)) as [Hincl Ht]. unfold ststep.
  destruct t as [td h]. cbn [stodo shere] in *. destruct td as [|[r p] tl0].
  { intros [= <-]. cbn [snd]. clear -Ei. revert i Ei. induction (snd s) as [|a l IH]; intros [|i]; cbn; try discriminate.
    - intros [= ->]. cbn. lia.
    - intros E. specialize (IH _ E). cbn in IH. lia. }
  assert (Hr : r < nrow) by (eapply Hrows, Hincl; left; reflexivity).
  destruct h as [id|id].
  - destruct Ht as (j & -> & Hj & Hp). destruct (_ <? N); [|discriminate].
    destruct (fst s (rm r + j)) as [v|] eqn:Em; intros [= <-]; cbn [snd].
    + assert (Hlt : j < cnt r).
      { destruct (HR r Hr) as (_ & k & Hk & Hs1 & Hs2). unfold rest in Hk.
        destruct (flat_setnth (fun t => ttodo t r) (snd s) i (STh ((r, p) :: tl0) (STry (rm r + j))) Ei) as (l1 & l2 & E & _).
        rewrite E, !app_length in Hk. cbn [ttodo shere stodo] in Hk. rewrite colsOf_cons, Nat.eqb_refl in Hk. cbn [length] in Hk.
        destruct (Nat.eq_dec j (cnt r)) as [->|]; [|lia]. exfalso. apply (Hp k); [lia|]. apply Hs2. lia. }
      apply swork_setnth with (t' := STh ((r, p) :: tl0) (STry (S (rm r + j)))) in Ei; [lia|].
      unfold sthWork. cbn [stodo shere]. lia.
    + apply swork_setnth with (t' := STh ((r, p) :: tl0) (SWrite (rm r + j))) in Ei; [lia|].
      unfold sthWork. cbn [stodo shere].
      assert (Hlt : j < cnt r); [|lia].
      destruct (HR r Hr) as (_ & k & Hk & Hs1 & Hs2). unfold rest in Hk.
      destruct (flat_setnth (fun t => ttodo t r) (snd s) i (STh ((r, p) :: tl0) (STry (rm r + j))) Ei) as (l1 & l2 & E & _).
      rewrite E, !app_length in Hk. cbn [ttodo shere stodo] in Hk. rewrite colsOf_cons, Nat.eqb_refl in Hk. cbn [length] in Hk.
      destruct (Nat.eq_dec j (cnt r)) as [->|]; [|lia]. exfalso. apply (Hp k); [lia|]. apply Hs2. lia.
  - destruct (id <? N); [|discriminate]. intros [= <-]. cbn [snd].
    apply swork_setnth with (t' := sload rm tl0) in Ei; [lia|]. rewrite sload_work. unfold sthWork. cbn [stodo shere]. lia.
Qed.
Lemma seffective_bound s sched : sinv s -> seffective s sched <= swork (snd s).
Proof.
  revert s. induction sched as [|i sched IH]; intros s Hs; cbn; [lia|].
  destruct (sstep_inv i Hs) as (s' & E & Hs'). rewrite E. specialize (IH s' Hs').
  pose proof (sstep_work _ Hs E). lia.
Qed.
End STORE.
