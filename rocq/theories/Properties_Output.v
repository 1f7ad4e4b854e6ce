(** C82: what the diagnostic monitors write. *)
From Verif Require Import TempGridModel Properties_TempGrid TotalsModel Properties_Totals OutputModel.
From Verif Require RateTempModel.
Open Scope R_scope.

(** ** Shares of the processes *)
(** Consecutive points are given to the processes. *)
Fixpoint shares (start : nat) (sizes : list nat) : list (nat * nat) :=
  match sizes with [] => [] | m :: r => (start, m) :: shares (start + m) r end.
Lemma shares_sum sizes F : forall start,
  Rsum (shares start sizes) (fun p => Rsum (seq (fst p) (snd p)) F) = Rsum (seq start (list_sum sizes)) F.
Proof.
  induction sizes as [|m sizes IH]; intros start; [reflexivity|]. cbn [shares list_sum fold_right]. fold (list_sum sizes).
  rewrite seq_app, Rsum_app, <- IH. reflexivity.
Qed.

(** ** The data lines *)
Section LINES.
Variable columns : list Column.
Variable pairs : list (nat * nat).
Variable cs : list tcl.
Variable ns : nat.
Variable sizes : list Z.
Notation w := (width columns).

Lemma fold_adds (h : nat -> nat) (v : nat -> R) l : forall d j,
  fold_left (fun (d : nat -> R) k => upd d (h k) (d (h k) + v k)) l d j = d j + Rsum l (fun k => if Nat.eqb j (h k) then v k else 0).
Proof.
  induction l as [|k l IH]; intros d j; cbn [fold_left Rsum]; [lra|]. rewrite IH. unfold upd.
  destruct (Nat.eqb_spec j (h k)) as [->|]; lra.
Qed.
Definition value (f : nat -> R) (s k : nat) : R :=
  getTotalsImpl cs f [] (quantities columns sizes s) (map quantity columns) k * snd (kind columns k).
Lemma addValues_gen f fac l : forall d j,
  fold_left (addSpecies columns cs sizes f fac) l d j =
  d j + Rsum l (fun s => Rsum (seq 0 w) (fun k => if Nat.eqb j (w * s + k) then value f s k * fac else 0)).
Proof.
  induction l as [|s l IH]; intros d j; cbn [fold_left Rsum]; [lra|]. rewrite IH. unfold addSpecies. cbv zeta.
  rewrite (fold_adds (fun k => (w * s + k)%nat)). unfold value. lra.
Qed.
Lemma index_inj a s k s' k' : (k < a)%nat -> (k' < a)%nat -> (a * s + k = a * s' + k')%nat -> s = s' /\ k = k'.
Proof.
  intros H H' E. destruct (Nat.lt_trichotomy s s') as [L|[->|L]].
  - exfalso. assert (a * s + a <= a * s')%nat by nia. lia.
  - split; [reflexivity|lia].
  - exfalso. assert (a * s' + a <= a * s)%nat by nia. lia.
Qed.
Lemma Rsum_seq_one n i F : (i < n)%nat -> (forall j, (j < n)%nat -> j <> i -> F j = 0) -> Rsum (seq 0 n) F = F i.
Proof.
  intros Hi H. apply Rsum_single.
  - apply seq_NoDup.
  - apply in_seq. lia.
  - intros j Hj Hn. apply in_seq in Hj. apply H; [lia|exact Hn].
Qed.
Lemma addValues_at f fac d s k : (s < ns)%nat -> (k < w)%nat ->
  addMonitorDataValues columns cs ns sizes f fac d (w * s + k) = d (w * s + k)%nat + value f s k * fac.
Proof.
  intros Hs Hk. unfold addMonitorDataValues. rewrite addValues_gen. f_equal.
  rewrite (Rsum_seq_one ns s _ Hs).
  - rewrite (Rsum_seq_one w k _ Hk).
    + rewrite Nat.eqb_refl. reflexivity.
    + intros j Hj Hn. destruct (Nat.eqb_spec (w * s + k) (w * s + j)); [lia|reflexivity].
  - intros s' Hs' Hn. apply Rsum_zero. intros j Hj. apply in_seq in Hj.
    destruct (Nat.eqb_spec (w * s + k) (w * s' + j)) as [E|]; [|reflexivity].
    destruct (index_inj w s k s' j Hk ltac:(lia) E). congruence.
Qed.
Lemma localLine_at g conc first Mx right xs xm s k : (s < ns)%nat -> (k < w)%nat ->
  localLine columns cs ns sizes g conc first Mx right (xs, xm) (w * s + k)%nat =
  Rsum (seq xs xm) (fun xi => if orb (Nat.ltb xi first) (Nat.eqb xi (Mx - right)) then 0 else value (conc xi) s k * (g.[xi + 1] - g.[xi])).
Proof.
  intros Hs Hk. unfold localLine. cbn [fst snd].
  assert (G : forall l d, fold_left (fun d xi => if orb (Nat.ltb xi first) (Nat.eqb xi (Mx - right)) then d
                         else addMonitorDataValues columns cs ns sizes (conc xi) (g.[xi + 1] - g.[xi]) d) l d (w * s + k)%nat =
     d (w * s + k)%nat + Rsum l (fun xi => if orb (Nat.ltb xi first) (Nat.eqb xi (Mx - right)) then 0 else value (conc xi) s k * (g.[xi + 1] - g.[xi]))).
  { induction l as [|xi l IH]; intros d; cbn [fold_left Rsum]; [lra|]. rewrite IH.
    destruct (orb _ _); [lra|]. rewrite addValues_at by assumption. lra. }
  rewrite G. lra.
Qed.
Lemma skip_sum first Mx right F : (right <= 1)%nat -> (first + right <= Mx)%nat ->
  Rsum (seq 0 Mx) (fun xi => if orb (Nat.ltb xi first) (Nat.eqb xi (Mx - right)) then 0 else F xi) = Rsum (seq first (Mx - right - first)) F.
Proof.
  intros Hr HM. replace Mx with (first + ((Mx - right - first) + right))%nat at 1 by lia. rewrite !seq_app, !Rsum_app. cbn [Nat.add].
  rewrite (Rsum_zero (seq 0 first)).
  2:{ intros x Hx. apply in_seq in Hx. destruct (Nat.ltb_spec x first); [reflexivity|lia]. }
  rewrite (Rsum_zero (seq (first + (Mx - right - first)) right)).
  2:{ intros x Hx. apply in_seq in Hx. destruct (Nat.eqb_spec x (Mx - right)); [rewrite orb_true_r; reflexivity|lia]. }
  rewrite Rplus_0_l, Rplus_0_r. apply Rsum_ext. intros x Hx. apply in_seq in Hx.
  destruct (Nat.ltb_spec x first); [lia|]. destruct (Nat.eqb_spec x (Mx - right)); [lia|reflexivity].
Qed.
Lemma reduced_at g conc first Mx right parts s k : (s < ns)%nat -> (k < w)%nat -> (right <= 1)%nat -> (first + right <= Mx)%nat ->
  list_sum parts = Mx ->
  reduced (map (localLine columns cs ns sizes g conc first Mx right) (shares 0 parts)) (w * s + k)%nat =
  Rsum (seq first (Mx - right - first)) (fun x => value (conc x) s k * (g.[x + 1] - g.[x])).
Proof.
  intros Hs Hk Hr HM HP. unfold reduced. rewrite Rsum_map.
  rewrite (Rsum_ext _ _ (fun p => Rsum (seq (fst p) (snd p))
     (fun xi => if orb (Nat.ltb xi first) (Nat.eqb xi (Mx - right)) then 0 else value (conc xi) s k * (g.[xi + 1] - g.[xi])))).
  2:{ intros [xs xm] _. apply localLine_at; assumption. }
  rewrite shares_sum, HP. apply skip_sum; assumption.
Qed.

(** *** The averages *)
Lemma fold_blocks (F : (nat -> R) -> nat -> nat -> R) (block : nat -> nat -> Prop) :
  (forall d s j, ~ block s j -> F d s j = d j) ->
  (forall d d' s, (forall j, block s j -> d j = d' j) -> forall j, block s j -> F d s j = F d' s j) ->
  (forall s s' j, block s j -> block s' j -> s = s') ->
  forall l d s j, NoDup l -> In s l -> block s j -> fold_left F l d j = F d s j.
Proof.
  intros H1 H2 H3. induction l as [|a l IH]; intros d s j ND I B; [contradiction|]. inversion ND as [|? ? NI ND']; subst. cbn [fold_left].
  destruct I as [->|I].
  - assert (G : forall l d, ~ In s l -> fold_left F l d j = d j).
    { induction l0 as [|b l0 IH0]; intros d0 N; [reflexivity|]. cbn [fold_left]. rewrite IH0; [|intros ?; apply N; right; assumption].
      apply H1. intros B'. apply N. left. eapply H3; eassumption. }
    apply G. exact NI.
  - rewrite (IH _ s j ND' I B). apply H2 with (d' := d); [|exact B]. intros j' B'. apply H1. intros B''.
    assert (a = s) by (eapply H3; eassumption). subst. contradiction.
Qed.
Definition inBlock (s j : nat) : Prop := (w * s <= j < w * s + w)%nat.
Definition good : Prop := Forall (fun p => (fst p < w)%nat /\ (snd p < w)%nat) pairs.
Lemma average_out d s j : good -> ~ inBlock s j -> averageSpecies columns pairs d s j = d j.
Proof.
  unfold averageSpecies, good, inBlock. intros HG HN. revert d. induction pairs as [|[a b] l IH]; intros d; [reflexivity|].
  inversion HG as [|? ? [Ha Hb] HG']; subst. cbn [fold_left fst snd] in *. rewrite IH by assumption.
  destruct (Rlt_dec _ _); [|reflexivity]. unfold upd. destruct (Nat.eqb_spec j (w * s + a)); [lia|reflexivity].
Qed.
Lemma average_ext d d' s : good -> (forall j, inBlock s j -> d j = d' j) -> forall j, inBlock s j ->
  averageSpecies columns pairs d s j = averageSpecies columns pairs d' s j.
Proof.
  unfold averageSpecies, good, inBlock. intros HG. revert d d'. induction pairs as [|[a b] l IH]; intros d d' HE j Hj; [apply HE; exact Hj|].
  inversion HG as [|? ? [Ha Hb] HG']; subst. cbn [fold_left fst snd] in *. apply IH; [assumption| |exact Hj].
  intros j' Hj'. rewrite <- (HE (w * s + b)%nat) by lia. destruct (Rlt_dec _ _); [|apply HE; exact Hj'].
  unfold upd. destruct (Nat.eqb_spec j' (w * s + a)); [rewrite <- (HE (w * s + a)%nat) by lia; reflexivity|apply HE; exact Hj'].
Qed.
Lemma average_at d s k : good -> (s < ns)%nat -> (k < w)%nat ->
  fold_left (averageSpecies columns pairs) (seq 0 ns) d (w * s + k)%nat = averageSpecies columns pairs d s (w * s + k)%nat.
Proof.
  intros HG Hs Hk. apply (fold_blocks (averageSpecies columns pairs) inBlock).
  - intros. apply average_out; assumption.
  - intros. apply average_ext; assumption.
  - unfold inBlock. intros a b j Ha Hb. destruct (Nat.lt_trichotomy a b) as [L|[E|L]]; [|exact E|]; exfalso; nia.
  - apply seq_NoDup.
  - apply in_seq. lia.
  - unfold inBlock. lia.
Qed.
End LINES.

(** The spec: the amount over the treated depth, from the point [first] to the point
    before [last], of a density [N] per volume; a mean is the quotient if there is
    anything to average. *)
Definition deep (g : list R) (first last : nat) (N : nat -> R) : R :=
  Rsum (seq first (last - first)) (fun x => (g.[x + 1] - g.[x]) * N x).
Definition quotient (v d : R) : R := if Rlt_dec (1 / 10 ^ 16) d then v / d else v.

Lemma flat_map_ext_in {A B} (f h : A -> list B) l : (forall a, In a l -> f a = h a) -> flat_map f l = flat_map h l.
Proof. induction l as [|a l IH]; intros H; [reflexivity|]. cbn [flat_map]. rewrite (H a (or_introl eq_refl)), IH; [reflexivity|]. intros; apply H; right; assumption. Qed.
Lemma deep_scal g first Mx right c N : Rsum (seq first (Mx - right - first)) (fun x => N x * c * (g.[x + 1] - g.[x])) = c * deep g first (Mx - right) N.
Proof. unfold deep. rewrite <- Rsum_scal. apply Rsum_ext. intros; ring. Qed.

Section ZR.
Variable cs : list tcl.
Variable sizes : list Z.
Lemma zr_value f s k : (k < 6)%nat -> value zrColumns cs sizes f s k =
  nth k [getTotalConcentration cs f s 1 * 1; getTotalAtomConcentration cs f s 1 * 1; getTotalRadiusConcentration cs f s 1 * 2;
         getTotalConcentration cs f s (nth s sizes 0%Z) * 1; getTotalAtomConcentration cs f s (nth s sizes 0%Z) * 1;
         getTotalRadiusConcentration cs f s (nth s sizes 0%Z) * 2] 0.
Proof.
  intros Hk. unfold value. pose proof (c21_getTotals cs f [] (quantities zrColumns sizes s) (map quantity zrColumns) k Hk) as E.
  do 6 (destruct k as [|k]; [cbn in E |- *; rewrite E; reflexivity|]). lia.
Qed.
Lemma alloy_value f s k : (k < 4)%nat -> value alloyColumns cs sizes f s k =
  nth k [getTotalConcentration cs f s 1 * 1; getTotalRadiusConcentration cs f s 1 * 2;
         getTotalConcentration cs f s (nth s sizes 0%Z) * 1; getTotalRadiusConcentration cs f s (nth s sizes 0%Z) * 2] 0.
Proof.
  intros Hk. unfold value. pose proof (c21_getTotals cs f [] (quantities alloyColumns sizes s) (map quantity alloyColumns) k Hk) as E.
  do 4 (destruct k as [|k]; [cbn in E |- *; rewrite E; reflexivity|]). lia.
Qed.
End ZR.

Lemma zr_average d s : let w := (6 * s)%nat in
  map (fun k => averageSpecies zrColumns zrPairs d s (6 * s + k)%nat) (seq 0 6) =
  [d w; d (w + 1)%nat; quotient (d (w + 2)%nat) (d w); d (w + 3)%nat; d (w + 4)%nat; quotient (d (w + 5)%nat) (d (w + 3)%nat)].
Proof.
  cbv zeta. unfold averageSpecies, zrPairs, quotient. change (width zrColumns) with 6%nat. cbn [fold_left fst snd seq map].
  rewrite Nat.add_0_r. generalize (6 * s)%nat. intros w.
  assert (N : forall a b, a <> b -> Nat.eqb (w + a) (w + b) = false) by (intros a b H; apply Nat.eqb_neq; lia).
  assert (N0 : forall b, b <> 0%nat -> Nat.eqb w (w + b) = false) by (intros b H; apply Nat.eqb_neq; lia).
  destruct (Rlt_dec (1 / 10 ^ 16) (d w)); unfold upd; rewrite ?(N 3 2)%nat by lia;
    (destruct (Rlt_dec (1 / 10 ^ 16) (d (w + 3)%nat))); rewrite ?Nat.eqb_refl, ?N, ?N0 by lia; reflexivity.
Qed.
Lemma alloy_average d s : let w := (4 * s)%nat in
  map (fun k => averageSpecies alloyColumns alloyPairs d s (4 * s + k)%nat) (seq 0 4) =
  [d w; quotient (d (w + 1)%nat) (d w); d (w + 2)%nat; quotient (d (w + 3)%nat) (d (w + 2)%nat)].
Proof.
  cbv zeta. unfold averageSpecies, alloyPairs, quotient. change (width alloyColumns) with 4%nat. cbn [fold_left fst snd seq map].
  rewrite Nat.add_0_r. generalize (4 * s)%nat. intros w.
  assert (N : forall a b, a <> b -> Nat.eqb (w + a) (w + b) = false) by (intros a b H; apply Nat.eqb_neq; lia).
  assert (N0 : forall b, b <> 0%nat -> Nat.eqb w (w + b) = false) by (intros b H; apply Nat.eqb_neq; lia).
  destruct (Rlt_dec (1 / 10 ^ 16) (d w)); unfold upd; rewrite ?(N 2 1)%nat by lia;
    (destruct (Rlt_dec (1 / 10 ^ 16) (d (w + 2)%nat))); rewrite ?Nat.eqb_refl, ?N, ?N0 by lia; reflexivity.
Qed.
Lemma zr_line ns local time : writeMonitorDataLine zrColumns zrPairs ns local time =
  time :: flat_map (fun s => let d := reduced local in let w := (6 * s)%nat in
    [d w; d (w + 1)%nat; quotient (d (w + 2)%nat) (d w); d (w + 3)%nat; d (w + 4)%nat; quotient (d (w + 5)%nat) (d (w + 3)%nat)]) (seq 0 ns).
Proof.
  unfold writeMonitorDataLine. cbv zeta. f_equal. apply flat_map_ext_in. intros s Hs. apply in_seq in Hs.
  rewrite <- zr_average. change (width zrColumns) with 6%nat. apply map_ext_in. intros k Hk. apply in_seq in Hk.
  apply (average_at zrColumns zrPairs ns); [|lia|cbn; lia]. repeat constructor; cbn; lia.
Qed.
Lemma alloy_line ns local time : writeMonitorDataLine alloyColumns alloyPairs ns local time =
  time :: flat_map (fun s => let d := reduced local in let w := (4 * s)%nat in
    [d w; quotient (d (w + 1)%nat) (d w); d (w + 2)%nat; quotient (d (w + 3)%nat) (d (w + 2)%nat)]) (seq 0 ns).
Proof.
  unfold writeMonitorDataLine. cbv zeta. f_equal. apply flat_map_ext_in. intros s Hs. apply in_seq in Hs.
  rewrite <- alloy_average. change (width alloyColumns) with 4%nat. apply map_ext_in. intros k Hk. apply in_seq in Hk.
  apply (average_at alloyColumns alloyPairs ns); [|lia|cbn; lia]. repeat constructor; cbn; lia.
Qed.

(** Zirconium: density, atoms and mean diameter per species, over all sizes and from the
    minimum size on, integrated over the depth, for every share of the points. *)
Theorem c82_zr cs ns sizes g conc first Mx right parts time : (right <= 1)%nat -> (first + right <= Mx)%nat -> list_sum parts = Mx ->
  monitorLine zrColumns zrPairs cs ns sizes g conc first Mx right (shares 0 parts) time =
  time :: flat_map (fun s => let m := nth s sizes 0%Z in
    let D n := deep g first (Mx - right) (fun x => getTotalConcentration cs (conc x) s n) in
    let A n := deep g first (Mx - right) (fun x => getTotalAtomConcentration cs (conc x) s n) in
    let L n := deep g first (Mx - right) (fun x => getTotalRadiusConcentration cs (conc x) s n) in
    [D 1%Z; A 1%Z; quotient (2 * L 1%Z) (D 1%Z); D m; A m; quotient (2 * L m) (D m)]) (seq 0 ns).
Proof.
  intros Hr HM HP. unfold monitorLine. rewrite zr_line. f_equal. apply flat_map_ext_in. intros s Hs. apply in_seq in Hs.
  set (l := map _ _). cbv zeta.
  assert (E : forall k, (k < 6)%nat -> reduced l (6 * s + k)%nat =
    Rsum (seq first (Mx - right - first)) (fun x => value zrColumns cs sizes (conc x) s k * (g.[x + 1] - g.[x]))).
  { intros k Hk. apply (reduced_at zrColumns cs ns sizes); cbn; auto; lia. }
  pose proof (E 0%nat ltac:(lia)) as E0. rewrite Nat.add_0_r in E0. rewrite E0. rewrite !E by lia.
  assert (S : forall k, (k < 6)%nat -> forall c N, (forall x, value zrColumns cs sizes (conc x) s k = N x * c) ->
    Rsum (seq first (Mx - right - first)) (fun x => value zrColumns cs sizes (conc x) s k * (g.[x + 1] - g.[x])) = c * deep g first (Mx - right) N).
  { intros k Hk c N HN. rewrite <- deep_scal. apply Rsum_ext. intros x _. rewrite HN. reflexivity. }
  rewrite (S 0%nat ltac:(lia) 1 (fun x => getTotalConcentration cs (conc x) s 1)) by (intros; apply zr_value; lia).
  rewrite (S 1%nat ltac:(lia) 1 (fun x => getTotalAtomConcentration cs (conc x) s 1)) by (intros; apply zr_value; lia).
  rewrite (S 2%nat ltac:(lia) 2 (fun x => getTotalRadiusConcentration cs (conc x) s 1)) by (intros; apply zr_value; lia).
  rewrite (S 3%nat ltac:(lia) 1 (fun x => getTotalConcentration cs (conc x) s (nth s sizes 0%Z))) by (intros; apply zr_value; lia).
  rewrite (S 4%nat ltac:(lia) 1 (fun x => getTotalAtomConcentration cs (conc x) s (nth s sizes 0%Z))) by (intros; apply zr_value; lia).
  rewrite (S 5%nat ltac:(lia) 2 (fun x => getTotalRadiusConcentration cs (conc x) s (nth s sizes 0%Z))) by (intros; apply zr_value; lia).
  rewrite !Rmult_1_l. reflexivity.
Qed.
Print Assumptions c82_zr.
Theorem c82_alloy cs ns sizes g conc first Mx right parts time : (right <= 1)%nat -> (first + right <= Mx)%nat -> list_sum parts = Mx ->
  monitorLine alloyColumns alloyPairs cs ns sizes g conc first Mx right (shares 0 parts) time =
  time :: flat_map (fun s => let m := nth s sizes 0%Z in
    let D n := deep g first (Mx - right) (fun x => getTotalConcentration cs (conc x) s n) in
    let L n := deep g first (Mx - right) (fun x => getTotalRadiusConcentration cs (conc x) s n) in
    [D 1%Z; quotient (2 * L 1%Z) (D 1%Z); D m; quotient (2 * L m) (D m)]) (seq 0 ns).
Proof.
  intros Hr HM HP. unfold monitorLine. rewrite alloy_line. f_equal. apply flat_map_ext_in. intros s Hs. apply in_seq in Hs.
  set (l := map _ _). cbv zeta.
  assert (E : forall k, (k < 4)%nat -> reduced l (4 * s + k)%nat =
    Rsum (seq first (Mx - right - first)) (fun x => value alloyColumns cs sizes (conc x) s k * (g.[x + 1] - g.[x]))).
  { intros k Hk. apply (reduced_at alloyColumns cs ns sizes); cbn; auto; lia. }
  pose proof (E 0%nat ltac:(lia)) as E0. rewrite Nat.add_0_r in E0. rewrite E0. rewrite !E by lia.
  assert (S : forall k, (k < 4)%nat -> forall c N, (forall x, value alloyColumns cs sizes (conc x) s k = N x * c) ->
    Rsum (seq first (Mx - right - first)) (fun x => value alloyColumns cs sizes (conc x) s k * (g.[x + 1] - g.[x])) = c * deep g first (Mx - right) N).
  { intros k Hk c N HN. rewrite <- deep_scal. apply Rsum_ext. intros x _. rewrite HN. reflexivity. }
  rewrite (S 0%nat ltac:(lia) 1 (fun x => getTotalConcentration cs (conc x) s 1)) by (intros; apply alloy_value; lia).
  rewrite (S 1%nat ltac:(lia) 2 (fun x => getTotalRadiusConcentration cs (conc x) s 1)) by (intros; apply alloy_value; lia).
  rewrite (S 2%nat ltac:(lia) 1 (fun x => getTotalConcentration cs (conc x) s (nth s sizes 0%Z))) by (intros; apply alloy_value; lia).
  rewrite (S 3%nat ltac:(lia) 2 (fun x => getTotalRadiusConcentration cs (conc x) s (nth s sizes 0%Z))) by (intros; apply alloy_value; lia).
  rewrite !Rmult_1_l. reflexivity.
Qed.
Print Assumptions c82_alloy.

(** *** Minimum sizes *)
Lemma setAt_nth l i v j : (i < length l)%nat -> nth j (setAt l i v) 0%Z = if Nat.eqb j i then v else nth j l 0%Z.
Proof.
  revert i j. induction l as [|x l IH]; intros i j H; [cbn in H; lia|]. destruct i as [|i], j as [|j]; cbn in *; try reflexivity.
  apply IH. lia.
Qed.
Lemma setAt_length l i v : length (setAt l i v) = length l.
Proof. revert i. induction l as [|x l IH]; intros [|i]; cbn; auto. Qed.
(** The options give the minimum sizes in the order of the species; a missing one is
    one, the superfluous are dropped. *)
Theorem c82_sizes ns opts : length (minRadiusSizes ns opts) = ns /\
  forall i, (i < ns)%nat -> nth i (minRadiusSizes ns opts) 0%Z = nth i opts 1%Z.
Proof.
  unfold minRadiusSizes.
  assert (G : forall n, (n <= length opts)%nat -> (n <= ns)%nat ->
    let l := fold_left (fun l i => setAt l i (nth i opts 0%Z)) (seq 0 n) (repeat 1%Z ns) in
    length l = ns /\ forall i, (i < ns)%nat -> nth i l 0%Z = if Nat.ltb i n then nth i opts 0%Z else 1%Z).
  { induction n as [|n IH]; intros H1 H2.
    - cbn. split; [apply repeat_length|]. intros i Hi. clear H1 H2. revert i Hi. induction ns as [|k IHk]; intros i Hi; [lia|].
      destruct i as [|i]; [reflexivity|]. apply IHk. lia.
    - rewrite seq_S, fold_left_app. cbn [fold_left Nat.add]. destruct (IH ltac:(lia) ltac:(lia)) as [L N]. cbv zeta. split; [rewrite setAt_length; exact L|].
      intros i Hi. rewrite setAt_nth by (rewrite L; lia). rewrite N by exact Hi.
      destruct (Nat.eqb_spec i n) as [->|]; [destruct (Nat.ltb_spec n (S n)); [reflexivity|lia]|].
      destruct (Nat.ltb_spec i n), (Nat.ltb_spec i (S n)); reflexivity || lia. }
  destruct (G (Nat.min (length opts) ns) ltac:(lia) ltac:(lia)) as [L N]. split; [exact L|]. intros i Hi. rewrite N by exact Hi.
  destruct (Nat.ltb_spec i (Nat.min (length opts) ns)).
  - apply nth_indep. lia.
  - symmetry. apply nth_overflow. lia.
Qed.
Print Assumptions c82_sizes.
Example c82_sizes_ok : minRadiusSizes 3 [5; 7]%Z = [5; 7; 1]%Z /\ minRadiusSizes 1 [5; 7]%Z = [5]%Z.
Proof. split; reflexivity. Qed.

(** *** Networks without groups: sums over the clusters *)
Definition ungrouped (cs : list tcl) (ns : nat) : Prop :=
  Forall (fun c => length (taxes c) = ns /\ Forall (fun r => (0 <= fst r /\ snd r = fst r + 1)%Z) (taxes c)) cs.
Definition size (cs : list tcl) (s i : nat) : Z := fst (nth s (taxes (nth i cs (Tcl [] 0))) (0, 0)%Z).
(** The clusters with at least [m] of the species. *)
Definition ofSize (cs : list tcl) (s : nat) (m : Z) : list nat := filter (fun i => Z.leb m (size cs s i)) (seq 0 (length cs)).
Lemma single_at cs ns s i : ungrouped cs ns -> (s < ns)%nat -> (i < length cs)%nat -> let c := nth i cs tdummy in
  axis c s = (size cs s i, size cs s i + 1)%Z /\ (0 <= size cs s i)%Z /\ factorOf c s = 1.
Proof.
  intros HU Hs Hi c. unfold ungrouped in HU. rewrite Forall_forall in HU. destruct (HU c (nth_In _ _ Hi)) as [L A].
  assert (In (axis c s) (taxes c)) as I by (apply nth_In; lia). rewrite Forall_forall in A. pose proof (A _ I) as [P E].
  assert (E' : axis c s = (size cs s i, size cs s i + 1)%Z).
  { unfold size. change (Tcl [] 0) with tdummy. fold c. rewrite (nth_indep (taxes c) (0, 0)%Z (0, 1)%Z) by lia. fold (axis c s).
    destruct (axis c s) as [a b]. cbn in *. congruence. }
  split; [exact E'|]. split; [rewrite E' in P; exact P|]. unfold factorOf, len. rewrite E'. cbn [fst snd].
  assert (V : vol (taxes c) = 1%Z).
  { clear -A. induction (taxes c) as [|r l IH]; [reflexivity|]. cbn [vol fold_right]. 
    assert (E := A r (or_introl eq_refl)). assert (IH' : vol l = 1%Z) by (apply IH; intros; apply A; right; assumption).
    unfold vol in *. cbn. rewrite IH'. unfold len. lia. }
  rewrite V. replace (size cs s i + 1 - size cs s i)%Z with 1%Z by lia. field.
Qed.
Lemma from_single m n : from m (n, n + 1)%Z = if Z.leb m n then [n] else [].
Proof.
  unfold from, inter, len. cbn [fst snd]. destruct (Z.leb_spec m n).
  - rewrite Z.max_r by lia. replace (n + 1 - n)%Z with 1%Z by lia. change (Z.to_nat 1) with 1%nat. cbn [seq map]. change (Z.of_nat 0) with 0%Z. rewrite Z.add_0_r. reflexivity.
  - rewrite Z.max_l by lia. replace (Z.to_nat (n + 1 - m)) with 0%nat by lia. reflexivity.
Qed.
Theorem c82_single cs ns s m f : ungrouped cs ns -> (s < ns)%nat ->
  getTotalConcentration cs f s m = Rsum (ofSize cs s m) f /\
  getTotalAtomConcentration cs f s m = Rsum (ofSize cs s m) (fun i => IZR (size cs s i) * f i) /\
  getTotalRadiusConcentration cs f s m = Rsum (ofSize cs s m) (fun i => radius (nth i cs (Tcl [] 0)) * f i).
Proof.
  intros HU Hs. unfold getTotalConcentration, getTotalAtomConcentration, getTotalRadiusConcentration, reduce, ofSize.
  rewrite !Rsum_filter. change (Tcl [] 0) with tdummy.
  repeat split; apply Rsum_ext; intros i Hi; apply in_seq in Hi; destruct (single_at cs ns s i HU Hs ltac:(lia)) as (E & _ & F); cbv zeta in *;
    rewrite E, F, from_single; destruct (Z.leb _ _); cbn [Rsum]; ring.
Qed.
Print Assumptions c82_single.

(** *** The mean diameter *)
Lemma nth_blocks (h : nat -> list R) b : (forall s, length (h s) = b) -> forall ns s k, (s < ns)%nat -> (k < b)%nat ->
  nth (b * s + k) (flat_map h (seq 0 ns)) 0 = nth k (h s) 0.
Proof.
  intros HL ns s k Hs Hk.
  assert (G : forall n start s, (s < n)%nat -> nth (b * s + k) (flat_map h (seq start n)) 0 = nth k (h (start + s)%nat) 0).
  { clear ns s Hs. induction n as [|n IH]; intros start s Hs; [lia|]. cbn [seq flat_map]. destruct s as [|s].
    - rewrite Nat.mul_0_r, Nat.add_0_r. cbn [Nat.add]. apply app_nth1. rewrite HL. exact Hk.
    - rewrite Nat.mul_succ_r. rewrite app_nth2 by (rewrite HL; lia). rewrite HL. replace (b * s + b + k - b)%nat with (b * s + k)%nat by lia.
      rewrite IH by lia. f_equal. f_equal. lia. }
  apply (G ns 0%nat s Hs).
Qed.
Lemma mean_bounds g first last N L a b : 1 / 10 ^ 16 < deep g first last N ->
  (forall x, (first <= x < last)%nat -> g.[x] <= g.[x + 1] /\ a * N x <= L x <= b * N x) ->
  2 * a <= quotient (2 * deep g first last L) (deep g first last N) <= 2 * b.
Proof.
  intros HD H. unfold quotient. destruct (Rlt_dec _ _); [|contradiction].
  assert (P : 0 < deep g first last N) by (eapply Rlt_trans; [|exact HD]; apply Rdiv_lt_0_compat; [lra|apply pow_lt; lra]).
  assert (E : a * deep g first last N <= deep g first last L <= b * deep g first last N).
  { unfold deep. rewrite <- !Rsum_scal. split; apply Rsum_le; intros x Hx; apply in_seq in Hx; destruct (H x ltac:(lia)) as [W [A B]]; nra. }
  set (D := deep g first last N) in *. set (S := deep g first last L) in *.
  assert (Q : 2 * S / D * D = 2 * S) by (field; lra). set (q := 2 * S / D) in *. nra.
Qed.
Lemma total_bounds cs ns s m f a b : ungrouped cs ns -> (s < ns)%nat -> (forall i, 0 <= f i) ->
  (forall i, In i (ofSize cs s m) -> a <= radius (nth i cs (Tcl [] 0)) <= b) ->
  a * getTotalConcentration cs f s m <= getTotalRadiusConcentration cs f s m <= b * getTotalConcentration cs f s m.
Proof.
  intros HU Hs Hf HR. destruct (c82_single cs ns s m f HU Hs) as (E1 & _ & E3). rewrite E1, E3, <- !Rsum_scal.
  split; apply Rsum_le; intros i Hi; specialize (HR i Hi); specialize (Hf i); nra.
Qed.
(** If there is anything to average, the diameters of the two lines are between twice the
    smallest and twice the largest radius of the clusters which are counted. *)
Theorem c82_diameter cs ns sizes g conc first Mx right parts time s a b m : (right <= 1)%nat -> (first + right <= Mx)%nat -> list_sum parts = Mx ->
  (s < ns)%nat -> ungrouped cs ns -> (forall x i, 0 <= conc x i) -> (forall x, (first <= x < Mx)%nat -> g.[x] <= g.[x + 1]) ->
  (forall i, In i (ofSize cs s m) -> a <= radius (nth i cs (Tcl [] 0)) <= b) ->
  1 / 10 ^ 16 < deep g first (Mx - right) (fun x => Rsum (ofSize cs s m) (conc x)) ->
  let zr := monitorLine zrColumns zrPairs cs ns sizes g conc first Mx right (shares 0 parts) time in
  let al := monitorLine alloyColumns alloyPairs cs ns sizes g conc first Mx right (shares 0 parts) time in
  (m = 1%Z -> 2 * a <= nth (1 + (6 * s + 2)) zr 0 <= 2 * b /\ 2 * a <= nth (1 + (4 * s + 1)) al 0 <= 2 * b) /\
  (m = nth s sizes 0%Z -> 2 * a <= nth (1 + (6 * s + 5)) zr 0 <= 2 * b /\ 2 * a <= nth (1 + (4 * s + 3)) al 0 <= 2 * b).
Proof.
  intros Hr HM HP Hs HU Hc Hg HR HD zr al.
  assert (B : 2 * a <= quotient (2 * deep g first (Mx - right) (fun x => getTotalRadiusConcentration cs (conc x) s m))
                        (deep g first (Mx - right) (fun x => getTotalConcentration cs (conc x) s m)) <= 2 * b).
  { apply mean_bounds.
    - unfold deep in *. rewrite (Rsum_ext _ _ (fun x => (g.[x + 1] - g.[x]) * Rsum (ofSize cs s m) (conc x))); [exact HD|].
      intros x _. f_equal. apply (c82_single cs ns s m (conc x) HU Hs).
    - intros x Hx. split; [apply Hg; lia|]. apply (total_bounds cs ns); auto. }
  subst zr al. rewrite c82_zr, c82_alloy by assumption. cbn [Nat.add nth].
  split; intros Em; split;
    (rewrite (nth_blocks _ 6) by (reflexivity || lia)) || (rewrite (nth_blocks _ 4) by (reflexivity || lia)); cbn [nth]; rewrite <- ?Em; rewrite Em in B; try exact B; subst m; exact B.
Qed.
Print Assumptions c82_diameter.
Example c82_diameter_ok : let cs := [Tcl [(1, 2)%Z] 1; Tcl [(4, 5)%Z] 2] in let g := [0; 1; 3; 7; 10] in
  ungrouped cs 1 /\ (forall x, (1 <= x < 4)%nat -> g.[x] <= g.[x + 1]) /\
  (forall i, In i (ofSize cs 0 1) -> 1 <= radius (nth i cs (Tcl [] 0)) <= 2) /\
  1 / 10 ^ 16 < deep g 1 (4 - 1) (fun x => Rsum (ofSize cs 0 1) (fun i => INR (x + i))).
Proof.
  cbv zeta. split; [repeat constructor; cbn; lia|]. split; [|split].
  - intros x Hx. do 4 (destruct x as [|x]; [try lia; cbn; lra|]). lia.
  - intros i Hi. cbn in Hi. destruct Hi as [<-|[<-|[]]]; cbn; lra.
  - apply Rlt_trans with 1; [|unfold deep; cbn; lra].
    apply Rmult_lt_reg_r with (10 ^ 16); [apply pow_lt; lra|]. unfold Rdiv. rewrite Rmult_assoc, Rinv_l by (apply pow_nonzero; lra). lra.
Qed.
(** Below that density the column has twice the summed radius, not a diameter. *)
Theorem c82_thin_refuted r c : 0 < r -> 0 < c <= 1 / 10 ^ 16 -> exists cs g sizes,
  ungrouped cs 1 /\ radius (nth 0 cs (Tcl [] 0)) = r /\
  monitorLine zrColumns zrPairs cs 1 sizes g (fun _ _ => c) 0 1 0 (shares 0 [1%nat]) 0 = [0; c; c; 2 * r * c; c; c; 2 * r * c] /\ 2 * r * c < 2 * r.
Proof.
  intros Hr Hc. exists [Tcl [(1, 2)%Z] r], [0; 1], [1%Z]. split; [|split; [reflexivity|split]].
  - repeat constructor; cbn; lia.
  - rewrite c82_zr by (cbn; lia || auto). cbv zeta. f_equal. cbn [seq flat_map app nth].
    assert (U : ungrouped [Tcl [(1, 2)%Z] r] 1) by (repeat constructor; cbn; lia).
    unfold deep. cbn [Nat.sub seq Rsum].
    destruct (c82_single _ 1 0 1 (fun _ => c) U ltac:(lia)) as (E1 & E2 & E3). rewrite E1, E2, E3. unfold ofSize, size. cbn [length seq filter nth taxes fst Z.leb Z.compare Pos.compare Pos.compare_cont Rsum radius Nat.add].
    replace ((1 - 0) * (c + 0) + 0) with c by ring. unfold quotient. destruct (Rlt_dec _ _) as [L|_]; [exfalso; lra|].
    replace ((1 - 0) * (1 * c + 0) + 0) with c by ring. replace (2 * ((1 - 0) * (r * c + 0) + 0)) with (2 * r * c) by ring. reflexivity.
  - assert (1 / 10 ^ 16 < 1) by (apply Rmult_lt_reg_r with (10 ^ 16); [apply pow_lt; lra|]; unfold Rdiv; rewrite Rmult_assoc, Rinv_l by (apply pow_nonzero; lra); lra).
    nra.
Qed.
Print Assumptions c82_thin_refuted.
Example c82_zr_ok : let cs := [Tcl [(1, 2)%Z] 1; Tcl [(4, 5)%Z] 2] in let conc := fun x i => INR (x + i) in
  monitorLine zrColumns zrPairs cs 1 (minRadiusSizes 1 [3]%Z) [0; 1; 3; 7; 10] conc 1 4 1 (shares 0 [1; 2; 1]%nat) 5 =
  [5; 2 * 1 + 4 * 2 + (2 * 2 + 4 * 3); 2 * 1 + 4 * 2 + 4 * (2 * 2 + 4 * 3); (2 * (2 * 1 + 4 * 2) + 4 * (2 * 2 + 4 * 3)) / 26; 16; 64; 4] /\ ungrouped cs 1.
Proof.
  cbv zeta. assert (U : ungrouped [Tcl [(1, 2)%Z] 1; Tcl [(4, 5)%Z] 2] 1) by (repeat constructor; cbn; lia). split; [|exact U].
  assert (B : 1 / 10 ^ 16 < 1) by (apply Rmult_lt_reg_r with (10 ^ 16); [apply pow_lt; lra|]; unfold Rdiv; rewrite Rmult_assoc, Rinv_l by (apply pow_nonzero; lra); lra).
  rewrite c82_zr by (cbn; lia). f_equal. cbn [seq flat_map app]. cbv zeta. unfold deep. cbn [Nat.sub seq Rsum].
  change (nth 0 (minRadiusSizes 1 [3%Z]) 0%Z) with 3%Z.
  repeat match goal with |- context [getTotalConcentration ?c ?f ?s ?m] =>
    let E := fresh in destruct (c82_single c 1 s m f U ltac:(lia)) as (E & _ & _); rewrite E; clear E end.
  repeat match goal with |- context [getTotalAtomConcentration ?c ?f ?s ?m] =>
    let E := fresh in destruct (c82_single c 1 s m f U ltac:(lia)) as (_ & E & _); rewrite E; clear E end.
  repeat match goal with |- context [getTotalRadiusConcentration ?c ?f ?s ?m] =>
    let E := fresh in destruct (c82_single c 1 s m f U ltac:(lia)) as (_ & _ & E); rewrite E; clear E end.
  unfold ofSize, size. cbn [length seq filter nth taxes fst Z.leb Z.compare Pos.compare Pos.compare_cont Rsum radius Nat.add].
  cbn [INR]. unfold quotient.
  destruct (Rlt_dec _ _) as [_|N]; [|exfalso; apply N; lra]. destruct (Rlt_dec _ _) as [_|N]; [|exfalso; apply N; lra].
  repeat (apply (f_equal2 (@cons R)); [first [lra | unfold Rdiv; apply f_equal2; [lra|apply f_equal; lra]]|]). reflexivity.
Qed.

(** *** No dimension, and the coupled run *)
Lemma reduced_points columns cs ns sizes (l : list (list (nat -> R))) fac s k : (s < ns)%nat -> (k < width columns)%nat ->
  reduced (map (fun local => fold_left (fun d c => addMonitorDataValues columns cs ns sizes c fac d) local (fun _ => 0)) l) (width columns * s + k)%nat =
  fac * Rsum (concat l) (fun f => value columns cs sizes f s k).
Proof.
  intros Hs Hk. unfold reduced. rewrite Rsum_map.
  assert (G : forall loc d, fold_left (fun d c => addMonitorDataValues columns cs ns sizes c fac d) loc d (width columns * s + k)%nat =
     d (width columns * s + k)%nat + fac * Rsum loc (fun f => value columns cs sizes f s k)).
  { induction loc as [|f loc IH]; intros d; cbn [fold_left Rsum]; [lra|]. rewrite IH, addValues_at by assumption. lra. }
  induction l as [|loc l IH]; cbn [Rsum concat]; [lra|]. rewrite Rsum_app, G, IH. lra.
Qed.
Lemma zr_points cs ns sizes l time :
  writeMonitorDataLine zrColumns zrPairs ns
    (map (fun local => fold_left (fun d c => addMonitorDataValues zrColumns cs ns sizes c 1 d) local (fun _ => 0)) l) time =
  time :: flat_map (fun s => let m := nth s sizes 0%Z in
    let D n := Rsum (concat l) (fun f => getTotalConcentration cs f s n) in
    let A n := Rsum (concat l) (fun f => getTotalAtomConcentration cs f s n) in
    let L n := Rsum (concat l) (fun f => getTotalRadiusConcentration cs f s n) in
    [D 1%Z; A 1%Z; quotient (2 * L 1%Z) (D 1%Z); D m; A m; quotient (2 * L m) (D m)]) (seq 0 ns).
Proof.
  rewrite zr_line. f_equal. apply flat_map_ext_in. intros s Hs. apply in_seq in Hs. set (l' := map _ _). cbv zeta.
  assert (E : forall k c N, (k < 6)%nat -> (forall f, value zrColumns cs sizes f s k = N f * c) -> reduced l' (6 * s + k)%nat = c * Rsum (concat l) N).
  { intros k c N Hk HN. pose proof (reduced_points zrColumns cs ns sizes l 1 s k ltac:(lia) Hk) as Q. change (width zrColumns) with 6%nat in Q. fold l' in Q. rewrite Q. rewrite <- !Rsum_scal. apply Rsum_ext. intros f _. rewrite HN. ring. }
  pose proof (E 0%nat 1 (fun f => getTotalConcentration cs f s 1) ltac:(lia) ltac:(intros; apply zr_value; lia)) as E0. rewrite Nat.add_0_r in E0. rewrite E0.
  rewrite (E 1%nat 1 (fun f => getTotalAtomConcentration cs f s 1)) by (lia || (intros; apply zr_value; lia)).
  rewrite (E 2%nat 2 (fun f => getTotalRadiusConcentration cs f s 1)) by (lia || (intros; apply zr_value; lia)).
  rewrite (E 3%nat 1 (fun f => getTotalConcentration cs f s (nth s sizes 0%Z))) by (lia || (intros; apply zr_value; lia)).
  rewrite (E 4%nat 1 (fun f => getTotalAtomConcentration cs f s (nth s sizes 0%Z))) by (lia || (intros; apply zr_value; lia)).
  rewrite (E 5%nat 2 (fun f => getTotalRadiusConcentration cs f s (nth s sizes 0%Z))) by (lia || (intros; apply zr_value; lia)).
  rewrite !Rmult_1_l. reflexivity.
Qed.
Lemma alloy_points cs ns sizes l time :
  writeMonitorDataLine alloyColumns alloyPairs ns
    (map (fun local => fold_left (fun d c => addMonitorDataValues alloyColumns cs ns sizes c 1 d) local (fun _ => 0)) l) time =
  time :: flat_map (fun s => let m := nth s sizes 0%Z in
    let D n := Rsum (concat l) (fun f => getTotalConcentration cs f s n) in
    let L n := Rsum (concat l) (fun f => getTotalRadiusConcentration cs f s n) in
    [D 1%Z; quotient (2 * L 1%Z) (D 1%Z); D m; quotient (2 * L m) (D m)]) (seq 0 ns).
Proof.
  rewrite alloy_line. f_equal. apply flat_map_ext_in. intros s Hs. apply in_seq in Hs. set (l' := map _ _). cbv zeta.
  assert (E : forall k c N, (k < 4)%nat -> (forall f, value alloyColumns cs sizes f s k = N f * c) -> reduced l' (4 * s + k)%nat = c * Rsum (concat l) N).
  { intros k c N Hk HN. pose proof (reduced_points alloyColumns cs ns sizes l 1 s k ltac:(lia) Hk) as Q. change (width alloyColumns) with 4%nat in Q. fold l' in Q. rewrite Q. rewrite <- !Rsum_scal. apply Rsum_ext. intros f _. rewrite HN. ring. }
  pose proof (E 0%nat 1 (fun f => getTotalConcentration cs f s 1) ltac:(lia) ltac:(intros; apply alloy_value; lia)) as E0. rewrite Nat.add_0_r in E0. rewrite E0.
  rewrite (E 1%nat 2 (fun f => getTotalRadiusConcentration cs f s 1)) by (lia || (intros; apply alloy_value; lia)).
  rewrite (E 2%nat 1 (fun f => getTotalConcentration cs f s (nth s sizes 0%Z))) by (lia || (intros; apply alloy_value; lia)).
  rewrite (E 3%nat 2 (fun f => getTotalRadiusConcentration cs f s (nth s sizes 0%Z))) by (lia || (intros; apply alloy_value; lia)).
  rewrite !Rmult_1_l. reflexivity.
Qed.
Theorem c82_zero cs ns sizes f time :
  monitorLine0 zrColumns zrPairs cs ns sizes f time = time :: flat_map (fun s => let m := nth s sizes 0%Z in
    let D := getTotalConcentration cs f s in let A := getTotalAtomConcentration cs f s in let L := getTotalRadiusConcentration cs f s in
    [D 1%Z; A 1%Z; quotient (2 * L 1%Z) (D 1%Z); D m; A m; quotient (2 * L m) (D m)]) (seq 0 ns) /\
  monitorLine0 alloyColumns alloyPairs cs ns sizes f time = time :: flat_map (fun s => let m := nth s sizes 0%Z in
    let D := getTotalConcentration cs f s in let L := getTotalRadiusConcentration cs f s in
    [D 1%Z; quotient (2 * L 1%Z) (D 1%Z); D m; quotient (2 * L m) (D m)]) (seq 0 ns).
Proof.
  split.
  - change (monitorLine0 zrColumns zrPairs cs ns sizes f time) with (writeMonitorDataLine zrColumns zrPairs ns
      (map (fun local => fold_left (fun d c => addMonitorDataValues zrColumns cs ns sizes c 1 d) local (fun _ => 0)) [[f]]) time).
    rewrite zr_points. cbv zeta. cbn [concat app Rsum]. f_equal. apply flat_map_ext. intros s. rewrite !Rplus_0_r. reflexivity.
  - change (monitorLine0 alloyColumns alloyPairs cs ns sizes f time) with (writeMonitorDataLine alloyColumns alloyPairs ns
      (map (fun local => fold_left (fun d c => addMonitorDataValues alloyColumns cs ns sizes c 1 d) local (fun _ => 0)) [[f]]) time).
    rewrite alloy_points. cbv zeta. cbn [concat app Rsum]. f_equal. apply flat_map_ext. intros s. rewrite !Rplus_0_r. reflexivity.
Qed.
Print Assumptions c82_zero.

(** The concentrations of the sub-networks arrive at the clusters of the full network
    which they are the same as, if no cluster is in two of them. *)
Lemma fold_upd_nested (key : nat -> nat -> nat) (val : nat -> nat -> R) (n : nat -> nat) l f :
  fold_left (fun f i => fold_left (fun f j => upd f (key i j) (val i j)) (seq 0 (n i)) f) l f =
  fold_left (fun f p => upd f (key (fst p) (snd p)) (val (fst p) (snd p))) (flat_map (fun i => map (pair i) (seq 0 (n i))) l) f.
Proof.
  revert f. induction l as [|i l IH]; intros f; [reflexivity|]. cbn [fold_left flat_map]. rewrite fold_left_app, IH. f_equal.
  generalize (seq 0 (n i)). intros q. revert f. induction q as [|j q IHq]; intros f; [reflexivity|]. cbn [fold_left map fst snd]. apply IHq.
Qed.
Lemma fold_upd_at (key : nat * nat -> nat) (val : nat * nat -> R) l : forall f k,
  (forall p q, In p l -> In q l -> key p = key q -> val p = val q) ->
  fold_left (fun f p => upd f (key p) (val p)) l f k =
  match find (fun p => Nat.eqb k (key p)) l with Some p => val p | None => f k end.
Proof.
  induction l as [|p l IH]; intros f k H; [reflexivity|]. cbn [fold_left find]. rewrite IH by (intros; apply H; cbn; auto).
  unfold upd. destruct (Nat.eqb_spec k (key p)) as [->|].
  - destruct (find _ l) as [q|] eqn:E; [|reflexivity]. apply find_some in E. destruct E as [I E]. apply Nat.eqb_eq in E.
    apply H; cbn; auto.
  - reflexivity.
Qed.
Theorem c82_full from conc :
  (forall i j i' j', (i < length conc)%nat -> (j < length (nth i conc []))%nat -> (i' < length conc)%nat -> (j' < length (nth i' conc []))%nat ->
     from i j = from i' j' -> i = i' /\ j = j') ->
  (forall i j, (i < length conc)%nat -> (j < length (nth i conc []))%nat -> fullConc from conc (from i j) = nth j (nth i conc []) 0) /\
  forall k, (forall i j, (i < length conc)%nat -> (j < length (nth i conc []))%nat -> from i j <> k) -> fullConc from conc k = 0.
Proof.
  intros H. unfold fullConc. rewrite (fold_upd_nested from (fun i j => nth j (nth i conc []) 0) (fun i => length (nth i conc []))).
  set (l := flat_map _ _).
  assert (I : forall i j, In (i, j) l <-> (i < length conc)%nat /\ (j < length (nth i conc []))%nat).
  { intros i j. unfold l. rewrite in_flat_map. split.
    - intros (a & Ha & Hb). apply in_seq in Ha. apply in_map_iff in Hb. destruct Hb as (b & E & Hb). inversion E; subst. apply in_seq in Hb. lia.
    - intros [Hi Hj]. exists i. split; [apply in_seq; lia|]. apply in_map. apply in_seq. lia. }
  assert (A := fold_upd_at (fun p => from (fst p) (snd p)) (fun p => nth (snd p) (nth (fst p) conc []) 0) l (fun _ => 0)).
  assert (C : forall p q, In p l -> In q l -> from (fst p) (snd p) = from (fst q) (snd q) -> nth (snd p) (nth (fst p) conc []) 0 = nth (snd q) (nth (fst q) conc []) 0).
  { intros [i j] [i' j'] P Q E. apply I in P. apply I in Q. cbn [fst snd] in *. destruct (H i j i' j') as [-> ->]; tauto || reflexivity. }
  split.
  - intros i j Hi Hj. rewrite (A _ C). destruct (find _ l) as [[a b]|] eqn:E.
    + apply find_some in E. destruct E as [P E]. apply I in P. cbn [fst snd] in *. apply Nat.eqb_eq in E.
      destruct (H i j a b) as [-> ->]; tauto || reflexivity.
    + exfalso. eapply find_none with (x := (i, j)) in E; [|apply I; auto]. cbn in E. rewrite Nat.eqb_refl in E. discriminate.
  - intros k Hk. rewrite (A _ C). destruct (find _ l) as [[a b]|] eqn:E; [|reflexivity].
    apply find_some in E. destruct E as [P E]. apply I in P. cbn [fst snd] in *. apply Nat.eqb_eq in E. exfalso. apply (Hk a b); tauto || auto.
Qed.
Print Assumptions c82_full.
Example c82_full_ok : fullConc (fun i j => (2 * j + i)%nat) [[1; 2]; [3; 4]] 1%nat = 3 /\ fullConc (fun i j => (2 * j + i)%nat) [[1; 2]; [3; 4]] 7%nat = 0.
Proof. split; reflexivity. Qed.

(** A coupled run without dimension writes the line of the full network. *)
Theorem c82_coupled cs ns sizes from conc time :
  outputData zrColumns zrPairs cs ns sizes from [[conc]] time = monitorLine0 zrColumns zrPairs cs ns sizes (fullConc from conc) time /\
  outputData alloyColumns alloyPairs cs ns sizes from [[conc]] time = monitorLine0 alloyColumns alloyPairs cs ns sizes (fullConc from conc) time.
Proof. split; reflexivity. Qed.
Print Assumptions c82_coupled.
Lemma outputData_points columns pairs cs ns sizes from concs time :
  outputData columns pairs cs ns sizes from concs time =
  writeMonitorDataLine columns pairs ns
    (map (fun local => fold_left (fun d c => addMonitorDataValues columns cs ns sizes c 1 d) local (fun _ => 0)) (map (map (fullConc from)) concs)) time.
Proof.
  unfold outputData. rewrite map_map. f_equal. apply map_ext. intros local. generalize (fun _ : nat => 0).
  induction local as [|c l IH]; intros d; [reflexivity|]. cbn [fold_left map]. apply IH.
Qed.
(** With a depth it adds the points up whatever their width: a slab of [n] cells of
    width [h] and density [c] is reported as [n * c], alone as [n * h * c]. *)
Theorem c82_coupled_refuted n h c time : let cs := [Tcl [(1, 2)%Z] 1] in let g := map (fun i => INR i * h) (seq 0 (n + 1)) in
  nth 1 (outputData zrColumns zrPairs cs 1 [1%Z] (fun _ j => j) [repeat [[c]] n] time) 0 = INR n * c /\
  nth 1 (monitorLine zrColumns zrPairs cs 1 [1%Z] g (fun _ _ => c) 0 n 0 (shares 0 [n]) time) 0 = INR n * h * c.
Proof.
  cbv zeta. assert (U : ungrouped [Tcl [(1, 2)%Z] 1] 1) by (repeat constructor; cbn; lia).
  assert (T : forall f, getTotalConcentration [Tcl [(1, 2)%Z] 1] f 0 1 = f 0%nat).
  { intros f. destruct (c82_single _ 1 0 1 f U ltac:(lia)) as (E & _ & _). rewrite E. unfold ofSize, size.
    cbn [length seq filter nth taxes fst Z.leb Z.compare Pos.compare Pos.compare_cont Rsum radius Nat.add]. lra. }
  split.
  - rewrite outputData_points, zr_points. cbv zeta. cbn [seq flat_map app nth map concat]. rewrite app_nil_r, Rsum_map.
    rewrite (Rsum_ext _ _ (fun _ => c)); [rewrite Rsum_const, repeat_length; reflexivity|].
    intros x Hx. apply repeat_spec in Hx. subst x. rewrite T. reflexivity.
  - rewrite c82_zr by (cbn; lia). cbv zeta. cbn [seq flat_map app nth]. unfold deep. rewrite !Nat.sub_0_r.
    rewrite (Rsum_ext _ _ (fun _ => h * c)); [rewrite Rsum_const, seq_length; ring|].
    intros x Hx. apply in_seq in Hx. rewrite T.
    assert (G : forall i, (i <= n)%nat -> (map (fun i => INR i * h) (seq 0 (n + 1))).[i] = INR i * h).
    { intros i Hi. rewrite (nth_indep _ 0 (INR 0 * h)) by (rewrite map_length, seq_length; lia). rewrite (map_nth (fun i => INR i * h)).
      rewrite seq_nth by lia. reflexivity. }
    rewrite !G by lia. rewrite plus_INR. cbn [INR]. ring.
Qed.
Print Assumptions c82_coupled_refuted.

(** ** The TRIDYN file *)
Lemma atomTotals_known cs ns f : (1 <= ns <= 5)%nat ->
  atomTotals cs ns f = Some (map (fun s => getTotalAtomConcentration cs f s 1) (seq 0 ns)).
Proof.
  intros H. unfold atomTotals. cbv zeta.
  assert (E : existsb (fun l => (forallb isAtom l && Nat.eqb (length l) ns)%bool) getTotalsTypes = true).
  { do 6 (destruct ns as [|ns]; [try lia; reflexivity|]). lia. }
  rewrite E. f_equal. apply map_ext_in. intros s Hs. apply in_seq in Hs.
  pose proof (c21_getTotals cs f [] (map (fun s => (s, 1%Z)) (seq 0 ns)) (repeat QAtom ns) s ltac:(rewrite repeat_length; lia)) as Q.
  rewrite (nth_indep _ (0%nat, 0%Z) ((fun s => (s, 1%Z)) 0%nat)) in Q by (rewrite map_length, seq_length; lia).
  rewrite (map_nth (fun s => (s, 1%Z))) in Q. rewrite seq_nth in Q by lia. cbn [Nat.add] in Q.
  assert (R' : nth s (repeat QAtom ns) QTotal = QAtom).
  { assert (G : forall n k, (k < n)%nat -> nth k (repeat QAtom n) QTotal = QAtom).
    { induction n as [|n IH]; intros k Hk; [lia|]. destruct k; [reflexivity|]. cbn. apply IH. lia. }
    apply G. lia. }
  rewrite R' in Q. exact Q.
Qed.
Lemma atomTotals_unknown cs ns f : (6 <= ns)%nat -> atomTotals cs ns f = None.
Proof.
  intros H. unfold atomTotals. cbv zeta.
  assert (E : existsb (fun l => (forallb isAtom l && Nat.eqb (length l) ns)%bool) getTotalsTypes = false).
  { do 6 (destruct ns as [|ns]; [lia|]). reflexivity. }
  rewrite E. reflexivity.
Qed.
Lemma tridynRows_points cs ns same g tg conc nX left rs r :
  tridynRows cs ns same g tg conc nX left rs r =
  map (fun xi => ((xi - left)%nat, tridynRow cs ns same g tg conc nX left rs r xi)) (myPoints left r).
Proof.
  unfold tridynRows, myPoints. rewrite seq_length.
  set (n := (localXS r + localXM r - myFirst left r)%nat).
  assert (E : seq (myFirst left r) n = map (fun k => (myFirst left r + k)%nat) (seq 0 n)).
  { generalize (myFirst left r). intros a. clear. rewrite <- (Nat.add_0_r a) at 1. generalize 0%nat. induction n as [|n IH]; intros b; [reflexivity|]. cbn [seq map].
    f_equal. replace (S (a + b)) with (a + S b)%nat by lia. apply IH. }
  fold n. etransitivity; [|apply (f_equal (map _)); symmetry; exact E]. rewrite map_map. apply map_ext_in. intros k Hk. apply in_seq in Hk.
  rewrite seq_nth by lia. f_equal. unfold myFirst. lia.
Qed.
Lemma points_all left T parts : forall start, flat_map (myPoints left) (ranksOf start parts T) =
  seq (Nat.max start left) (start + list_sum parts - Nat.max start left).
Proof.
  induction parts as [|m parts IH]; intros start.
  - cbn [ranksOf flat_map list_sum fold_right]. replace (start + 0 - Nat.max start left)%nat with 0%nat by lia. reflexivity.
  - cbn [ranksOf flat_map list_sum fold_right]. fold (list_sum parts). rewrite IH. unfold myPoints, myFirst. cbn [localXS localXM].
    destruct (Nat.le_gt_cases left (start + m)).
    + rewrite (Nat.max_l (start + m)) by lia. replace (start + m)%nat with (Nat.max start left + (start + m - Nat.max start left))%nat at 2 by lia.
      rewrite <- seq_app. f_equal. lia.
    + replace (start + m - Nat.max start left)%nat with 0%nat by lia. cbn [seq app]. rewrite !Nat.max_r by lia. f_equal. lia.
Qed.
Lemma ranksOf_in T r parts : forall start, In r (ranksOf start parts T) ->
  localTemp r = firstn (localXM r + 2) (skipn (localXS r) T) /\ (localXS r + localXM r <= start + list_sum parts)%nat.
Proof.
  induction parts as [|m parts IH]; intros start Hr; [contradiction|]. cbn [ranksOf list_sum fold_right] in *. fold (list_sum parts).
  destruct Hr as [<-|Hr]; [cbn; split; [reflexivity|lia]|]. destruct (IH _ Hr) as [A B]. split; [exact A|lia].
Qed.
(** Every point from the left offset on has one row, in the order of the points: the depth
    of its centre, the atoms of each species, a temperature, zeros. *)
Theorem c82_tridyn cs ns same g tg conc left T parts : (1 <= ns <= 5)%nat ->
  let Mx := list_sum parts in let file := tridynFile cs ns same g tg conc Mx left (ranksOf 0 parts T) in
  map fst file = seq 0 (Mx - left) /\
  forall k row, In (k, row) file -> exists t, let x := (left + k)%nat in
    row = Some (((g.[x] + g.[x + 1]) / 2 - g.[1]) :: map (fun s => getTotalAtomConcentration cs (conc x) s 1) (seq 0 ns) ++ t :: repeat 0 (5 - ns)).
Proof.
  intros Hn Mx file. split.
  - unfold file, tridynFile. rewrite flat_map_concat_map, concat_map, map_map.
    rewrite (map_ext _ (fun r => map (fun xi => (xi - left)%nat) (myPoints left r))).
    2:{ intros r. rewrite tridynRows_points, map_map. reflexivity. }
    rewrite <- (map_map (myPoints left)), <- concat_map, <- flat_map_concat_map, points_all. cbn [Nat.max Nat.add]. fold Mx. 
    generalize (Mx - left)%nat. intros n.
    assert (G : forall n a, map (fun xi => (xi - left)%nat) (seq (left + a) n) = seq a n).
    { clear. induction n as [|n IH]; intros a; [reflexivity|]. cbn [seq map]. f_equal; [lia|]. replace (S (left + a)) with (left + S a)%nat by lia. apply IH. }
    rewrite <- (G n 0%nat), Nat.add_0_r. reflexivity.
  - intros k row H. unfold file, tridynFile in H. apply in_flat_map in H. destruct H as (r & _ & H). rewrite tridynRows_points in H.
    apply in_map_iff in H. destruct H as (xi & E & Hxi). inversion E; subst k row. clear E.
    unfold myPoints, myFirst in Hxi. apply in_seq in Hxi.
    unfold tridynRow. rewrite atomTotals_known by exact Hn. eexists. cbv zeta. replace (left + (xi - left))%nat with xi by lia. f_equal.
    set (t := nth _ _ _). set (h := fun s => _).
    do 6 (destruct ns as [|ns]; [try lia; reflexivity|]). lia.
Qed.
Print Assumptions c82_tridyn.
Example c82_tridyn_ok : exists row, let conc := fun x i => INR (x + i) in
  nth 1 (tridynFile [Tcl [(1, 2)%Z] 1; Tcl [(4, 5)%Z] 2] 1 true [0; 1; 3; 7] [] conc 3 1 (ranksOf 0 [2; 1]%nat [10; 20; 30; 40; 50])) (0%nat, None) = (1%nat, Some row) /\
  nth 0 row 0 = 4 /\ nth 2 row 0 = 30.
Proof.
  eexists. cbv zeta. split; [reflexivity|]. split; cbn; [lra|reflexivity].
Qed.
(** The temperature is that of a point nearer to the surface: with a strictly rising (or
    falling) temperature it is wrong in every row, *)
Theorem c82_tridyn_temperature_refuted cs ns g tg conc left T parts : (1 <= ns <= 5)%nat -> (left <= 1)%nat -> let Mx := list_sum parts in
  length T = (Mx + 2)%nat -> (forall i j, (i < j < length T)%nat -> T.[i] <> T.[j]) -> forall k row, In (k, Some row) (tridynFile cs ns true g tg conc Mx left (ranksOf 0 parts T)) ->
  nth (ns + 1) row 0 <> T.[left + k + 1].
Proof.
  intros Hn Hl Mx HL HT k row H. unfold tridynFile in H. apply in_flat_map in H. destruct H as (r & Hr & H). rewrite tridynRows_points in H.
  apply in_map_iff in H. destruct H as (xi & E & Hxi). inversion E as [[Ek Erow]]. clear E.
  unfold myPoints, myFirst in Hxi. apply in_seq in Hxi.
  destruct (ranksOf_in T r parts 0%nat Hr) as [G Gm]. fold Mx in Gm.
  unfold tridynRow in Erow. rewrite atomTotals_known in Erow by exact Hn. inversion Erow as [Er]. clear Erow Er.
  set (t := (RateTempModel.networkTemp true Mx g tg (ranksOf 0 parts T) r).[xi - myFirst left r]).
  set (h := fun s => _). set (x0 := _ - g.[1]).
  assert (Et : t <> T.[xi + 1]).
  { unfold t, RateTempModel.networkTemp. rewrite G. unfold myFirst.
    rewrite nth_firstn_skipn by lia. apply HT. lia. }
  replace (left + (xi - left) + 1)%nat with (xi + 1)%nat by lia.
  do 6 (destruct ns as [|ns]; [try lia; cbn; exact Et|]). lia.
Qed.
Print Assumptions c82_tridyn_temperature_refuted.
Example c82_tridyn_temperature_refuted_ok : let T := map INR (seq 1 9) in length T = (list_sum [4; 3]%nat + 2)%nat /\
  forall i j, (i < j < length T)%nat -> T.[i] <> T.[j].
Proof.
  intros T. split; [reflexivity|]. intros i j [H1 H2]. unfold T in *. rewrite map_length, seq_length in H2. rewrite (nth_indep _ 0 (INR 0) (n := i)), (nth_indep _ 0 (INR 0) (n := j)) by (rewrite map_length, seq_length; lia).
  rewrite !map_nth, !seq_nth by lia. intros E. apply INR_eq in E. lia.
Qed.
(** and it depends on how the points are shared out. *)
Theorem c82_tridyn_processes_refuted : exists cs g T conc, let file parts := tridynFile cs 1 true g [] conc (list_sum parts) 1 (ranksOf 0 parts T) in
  exists r1 r2, nth 1 (file [3%nat]) (0%nat, None) = (1%nat, Some r1) /\ nth 1 (file [2; 1]%nat) (0%nat, None) = (1%nat, Some r2) /\ nth 2 r1 0 <> nth 2 r2 0.
Proof.
  exists [Tcl [(1, 2)%Z] 1], [0; 1; 3; 7], [10; 20; 30; 40; 50], (fun _ _ => 1). cbv zeta. do 2 eexists. split; [reflexivity|]. split; [reflexivity|]. cbn. lra.
Qed.
Print Assumptions c82_tridyn_processes_refuted.
(** A network of six species (the Alloy) has no file: the totals throw. *)
Theorem c82_tridyn_species_refuted cs ns same g tg conc left T parts : (6 <= ns)%nat ->
  let Mx := list_sum parts in forall k row, In (k, row) (tridynFile cs ns same g tg conc Mx left (ranksOf 0 parts T)) -> row = None.
Proof.
  intros Hn Mx k row H. unfold tridynFile in H. apply in_flat_map in H. destruct H as (r & _ & H). rewrite tridynRows_points in H.
  apply in_map_iff in H. destruct H as (xi & E & _). inversion E. unfold tridynRow. rewrite atomTotals_unknown by exact Hn. reflexivity.
Qed.
Print Assumptions c82_tridyn_species_refuted.
Example c82_tridyn_species_refuted_ok : tridynFile [] 6 true [0; 1; 2] [] (fun _ _ => 0) 2 1 (ranksOf 0 [2%nat] [1; 2; 3; 4]) = [(0%nat, None)].
Proof. reflexivity. Qed.

(** ** The profile of the temperature *)
Lemma profile_one same g tg T nX rs xi parts : forall start, length T = (nX + 2)%nat -> (start + list_sum parts <= nX)%nat ->
  Rsum (ranksOf start parts T) (profileLocal same g tg nX rs xi) =
  if andb (Nat.leb start xi) (Nat.ltb xi (start + list_sum parts)) then
    (if same then T.[xi + 1] else interpolated nX g tg (gathered nX rs) (xi + 1)) else 0.
Proof.
  induction parts as [|m parts IH]; intros start HT HN; cbn [ranksOf list_sum fold_right Rsum] in *.
  - destruct (Nat.leb_spec start xi), (Nat.ltb_spec xi (start + 0)); cbn; reflexivity || lia.
  - fold (list_sum parts) in *. rewrite IH by (assumption || lia). unfold profileLocal. cbn [localXS localXM].
    destruct (Nat.leb_spec start xi), (Nat.ltb_spec xi (start + m)), (Nat.leb_spec (start + m) xi),
      (Nat.ltb_spec xi (start + m + list_sum parts)), (Nat.ltb_spec xi (start + (m + list_sum parts))); cbn [andb]; try lia; try lra.
    unfold RateTempModel.networkTemp. cbn [localTemp localXS localXM]. destruct same.
    + rewrite nth_firstn_skipn by lia. rewrite Rplus_0_r. f_equal. lia.
    + rewrite Rplus_0_r. rewrite (nth_indep _ 0 (interpolated nX g tg (gathered nX rs) 0%nat)) by (rewrite map_length, seq_length; lia).
      rewrite map_nth, seq_nth by lia. f_equal. lia.
Qed.
(** The line has the temperatures of the treated points, in their order, for every share
    of the points; with a separate temperature grid the interpolated ones. *)
Theorem c82_profile same g tg left right T parts : parts <> [] -> Forall (fun m => (1 <= m)%nat) parts -> let nX := list_sum parts in
  length T = (nX + 2)%nat ->
  profileTemperature same g tg nX left (ranksOf 0 parts T) right =
  map (fun x => if same then T.[x + 1] else interpolated nX g tg T (x + 1)) (seq left (nX - right - left)).
Proof.
  intros Hne HF nX HT. unfold profileTemperature. apply map_ext_in. intros x Hx. apply in_seq in Hx.
  rewrite profile_one by (assumption || (fold nX; lia)). fold nX. cbn [Nat.leb Nat.add].
  destruct (Nat.ltb_spec x nX); [|lia]. cbn [andb]. unfold nX. rewrite c31_gathered by assumption. reflexivity.
Qed.
Print Assumptions c82_profile.
Example c82_profile_ok : profileTemperature true [0; 1; 3; 7; 9] [] 4 1 (ranksOf 0 [3; 1]%nat [10; 20; 30; 40; 50; 60]) 1 = [30; 40].
Proof.
  etransitivity; [exact (c82_profile true [0; 1; 3; 7; 9] [] 1 1 [10; 20; 30; 40; 50; 60] [3; 1]%nat ltac:(discriminate) ltac:(repeat constructor; lia) eq_refl)|].
  reflexivity.
Qed.

(** ** Small concentrations *)
(** With a positive threshold: zero stays, everything else has at least the size of the
    threshold afterwards and the sign it had, moves by less than the threshold, and
    does not move a second time; nothing but the concentrations of the clusters changes. *)
Theorem c82_negative thr n c l : 0 < thr -> let c' := checkNegative thr n c in
  ((n <= l)%nat -> c' l = c l) /\
  ((l < n)%nat -> (c l = 0 -> c' l = 0) /\ (0 < c l -> thr <= c' l) /\ (c l < 0 -> c' l <= - thr) /\
    (thr <= Rabs (c l) -> c' l = c l) /\ Rabs (c' l - c l) < thr) /\
  checkNegative thr n c' l = c' l.
Proof.
  intros Ht. cbv zeta.
  assert (G : forall n c l, checkNegative thr n c l = if Nat.ltb l n then snap thr (c l) else c l).
  { clear. unfold checkNegative. induction n as [|n IH]; intros c l; [reflexivity|]. rewrite seq_S, fold_left_app. cbn [fold_left Nat.add]. unfold upd at 1. rewrite !IH.
    destruct (Nat.eqb_spec l n) as [->|].
    - destruct (Nat.ltb_spec n n); [lia|]. destruct (Nat.ltb_spec n (S n)); [reflexivity|lia].
    - destruct (Nat.ltb_spec l n), (Nat.ltb_spec l (S n)); reflexivity || lia. }
  rewrite !G. split; [|split].
  - intros H. destruct (Nat.ltb_spec l n); [lia|reflexivity].
  - intros H. destruct (Nat.ltb_spec l n); [|lia]. unfold snap. unfold Rabs.
    repeat (destruct (Rlt_dec _ _) || destruct (Rcase_abs _)); repeat split; intros; lra.
  - destruct (Nat.ltb l n); [|reflexivity]. unfold snap. repeat destruct (Rlt_dec _ _); lra.
Qed.
Print Assumptions c82_negative.
Example c82_negative_ok : checkNegative (1 / 2) 3 (fun l => INR l / 4) 1%nat = 1 / 2 /\ checkNegative (1 / 2) 3 (fun l => INR l / 4) 2%nat = 1 / 2.
Proof. split; unfold checkNegative, upd, snap; cbn; repeat (destruct (Rlt_dec _ _); try lra). Qed.
(** Negative concentrations do not disappear, and small ones become more negative. *)
Theorem c82_negative_refuted thr : 0 < thr -> exists c, checkNegative thr 2 c 0%nat = -1 - thr /\ c 0%nat = -1 - thr /\
  c 1%nat = - (thr / 2) /\ checkNegative thr 2 c 1%nat = - thr.
Proof.
  intros Ht. exists (fun l => match l with O => -1 - thr | _ => - (thr / 2) end). unfold checkNegative, upd, snap. cbn.
  repeat split; repeat destruct (Rlt_dec _ _); lra.
Qed.
Print Assumptions c82_negative_refuted.

(** ** The plots *)
(** One process: the series has all the points with the depth of their centres and the
    (at most eighteen) first concentrations. *)
Theorem c82_series g conc n Mx : exists l, monitorSeries g conc n (shares 0 [Mx]) = Some l /\ length l = Mx /\
  forall x, (x < Mx)%nat -> nth x l (0, []) = ((g.[x] + g.[x + 1]) / 2 - g.[1], map (conc x) (seq 0 (if Nat.leb n 18 then n else 18%nat))).
Proof.
  eexists. split; [reflexivity|]. unfold seriesPoints. cbn [fst snd]. split; [rewrite map_length, seq_length; reflexivity|].
  intros x Hx. set (F := fun xi => _). rewrite (nth_indep _ (0, []) (F 0%nat)) by (rewrite map_length, seq_length; exact Hx). rewrite map_nth, seq_nth by exact Hx.
  unfold F. cbn [Nat.add]. do 2 f_equal. destruct (Nat.leb_spec n 18); f_equal; lia.
Qed.
Print Assumptions c82_series.
Example c82_series_ok : monitorSeries [0; 1; 3] (fun x i => INR x) 1 (shares 0 [2]%nat) = Some [((0 + 1) / 2 - 1, [INR 0]); ((1 + 3) / 2 - 1, [INR 1])].
Proof. reflexivity. Qed.
(** With a second process the size of its part does not fit into the buffer of the first. *)
Theorem c82_series_refuted g conc n m1 m2 parts : monitorSeries g conc n (shares 0 (m1 :: m2 :: parts)) = None.
Proof.
  cbn [shares monitorSeries fold_left]. change (receive 4 8 (snd (0 + m1, m2)%nat)) with (@None nat).
  assert (G : forall l, fold_left (fun acc p => match acc, receive 4 8 (snd p) with
      | Some l, Some localSize => Some (l ++ firstn localSize (seriesPoints g conc n p)) | _, _ => None end) l None = (None : option (list (R * list R)))).
  { induction l as [|p l IH]; [reflexivity|]. exact IH. }
  apply G.
Qed.
Print Assumptions c82_series_refuted.
(** Exactly one process draws the size distribution, the one with the middle of the grid. *)
Theorem c82_scatter parts : (1 <= list_sum parts)%nat -> let Mx := list_sum parts in
  length (filter (drawsScatter Mx) (shares 0 parts)) = 1%nat /\
  forall p, In p (shares 0 parts) -> drawsScatter Mx p = true <-> (fst p <= Mx / 2 < fst p + snd p)%nat.
Proof.
  intros H Mx. split.
  - assert (G : forall N parts start, length (filter (drawsScatter N) (shares start parts)) =
      if andb (Nat.leb start (N / 2)) (Nat.ltb (N / 2) (start + list_sum parts)) then 1%nat else 0%nat).
    { clear. intros Mx. induction parts as [|m parts IH]; intros start; cbn [shares filter list_sum fold_right].
      - destruct (Nat.leb_spec start (Mx / 2)), (Nat.ltb_spec (Mx / 2) (start + 0)); cbn; reflexivity || lia.
      - fold (list_sum parts). unfold drawsScatter at 1. cbn [fst snd].
        destruct (Nat.leb_spec start (Mx / 2)), (Nat.ltb_spec (Mx / 2) (start + m)); cbn [andb length]; rewrite IH;
        destruct (Nat.leb_spec (start + m) (Mx / 2)), (Nat.ltb_spec (Mx / 2) (start + m + list_sum parts)), (Nat.ltb_spec (Mx / 2) (start + (m + list_sum parts))); cbn [andb]; reflexivity || lia. }
    rewrite G. fold Mx. assert (Mx / 2 < Mx)%nat by (apply Nat.div_lt; lia). cbn [Nat.leb Nat.add andb].
    destruct (Nat.ltb_spec (Mx / 2) Mx); [reflexivity|lia].
  - intros p _. unfold drawsScatter. rewrite andb_true_iff, Nat.leb_le, Nat.ltb_lt. reflexivity.
Qed.
Print Assumptions c82_scatter.
Example c82_scatter_ok : map (drawsScatter 5) (shares 0 [2; 2; 1]%nat) = [false; true; false].
Proof. reflexivity. Qed.
(** A size gets a point for each cluster whose region contains it. *)
Theorem c82_scatter_points cs xe f j v : In (j, v) (scatterPoints cs xe f) <->
  exists i, (i < length cs)%nat /\ v = f i /\ let a := nth xe (taxes (nth i cs (Tcl [] 0))) (0, 1)%Z in (fst a <= j < snd a)%Z.
Proof.
  assert (G : forall a : Z * Z, In j (inter a) <-> (fst a <= j < snd a)%Z).
  { intros [a b]. unfold inter, len. cbn [fst snd]. rewrite in_map_iff. split.
    - intros (n & E & Hn). apply in_seq in Hn. lia.
    - intros H. exists (Z.to_nat (j - a)). split; [rewrite Z2Nat.id by lia; ring|]. apply in_seq. lia. }
  unfold scatterPoints. rewrite in_flat_map. split.
  - intros (i & Hi & H). apply in_seq in Hi. apply in_map_iff in H. destruct H as (j' & E & Hj). inversion E; subst. exists i.
    split; [lia|]. split; [reflexivity|]. cbv zeta. apply G. exact Hj.
  - intros (i & Hi & -> & H). cbv zeta in H. exists i. split; [apply in_seq; lia|]. apply in_map_iff. exists j. split; [reflexivity|].
    apply G. exact H.
Qed.
Print Assumptions c82_scatter_points.
Example c82_scatter_points_ok : scatterPoints [Tcl [(1, 2)%Z] 1; Tcl [(4, 6)%Z] 2] 0 INR = [(1%Z, INR 0); (4%Z, INR 1); (5%Z, INR 1)].
Proof. reflexivity. Qed.
