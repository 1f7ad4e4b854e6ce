(** C77: the attenuation of trap mutation. *)
From Verif Require Import AttenuationModel.
From Verif Require Import Properties_Retention3.
Open Scope R_scope.

(** ** Reference *)
(** The helium trapped within 2 nm of the surface of a column, per unit of area. *)
Definition nearHelium (grid : nat -> R) (nX lo ro : nat) (surf : nat -> nat -> nat) (he : nat -> nat -> nat -> R) (j k : nat) : R :=
  Rsum (seq (surf j k + lo) (nX - ro - (surf j k + lo))) (fun xi =>
    if Rle_dec ((grid xi + grid (S xi)) / 2 - grid (S (surf j k))) 2 then he j k xi * (grid (S xi) - grid xi) else 0).

(** ** Lemmas *)
Lemma atoms_sum grid nX lo ro surf he mine j k : atoms grid nX lo ro surf he mine j k =
  Rsum (seq (surf j k + lo) (nX - ro - (surf j k + lo))) (fun xi => if mine xi then
    (if Rle_dec ((grid xi + grid (S xi)) / 2 - grid (S (surf j k))) 2 then he j k xi * (grid (S xi) - grid xi) else 0) else 0).
Proof.
  unfold atoms. rewrite (fold_sum _ _ _ (fun xi => if mine xi then
    (if Rle_dec ((grid xi + grid (S xi)) / 2 - grid (S (surf j k))) 2 then he j k xi * (grid (S xi) - grid xi) else 0) else 0)); [lra|].
  intros a xi _. replace (surf j k + 1)%nat with (S (surf j k)) by lia. replace (xi + 1)%nat with (S xi) by lia.
  destruct (Rlt_dec _ _); destruct (Rle_dec _ _); try lra; destruct (mine xi); lra.
Qed.
Lemma addAll_map A (l : list A) f g : addAll (map f l) (map g l) = map (fun x => f x + g x) l.
Proof. induction l as [|x l IH]; cbn; [reflexivity|]. rewrite IH. reflexivity. Qed.
Lemma reduce_map A (l : list A) (f : proc -> A -> R) : forall procs, procs <> [] ->
  reduceAll (map (fun p => map (f p) l) procs) = Some (map (fun x => Rsum procs (fun p => f p x)) l).
Proof.
  induction procs as [|p [|q procs] IH]; intros NE; [contradiction| |].
  - cbn [map reduceAll Rsum]. f_equal. apply map_ext. intros x. lra.
  - cbn [map]. cbn [map] in IH. change (reduceAll (map (f p) l :: map (f q) l :: map (fun p => map (f p) l) procs)) with
      (match reduceAll (map (f q) l :: map (fun p => map (f p) l) procs) with Some b => if (length (map (f p) l) =? length b)%nat then Some (addAll (map (f p) l) b) else None | None => None end).
    rewrite IH by discriminate. rewrite !map_length, Nat.eqb_refl, addAll_map. reflexivity.
Qed.
Lemma combine_map A (l : list A) (f : A -> R) : combine l (map f l) = map (fun x => (x, f x)) l.
Proof. induction l as [|x l IH]; cbn; [reflexivity|]. rewrite IH. reflexivity. Qed.
Lemma in_columns a n b m j k : In (j, k) (flat_map (fun k => map (fun j => (j, k)) (seq a n)) (seq b m)) <-> (a <= j < a + n)%nat /\ (b <= k < b + m)%nat.
Proof.
  rewrite in_flat_map. split.
  - intros (k' & Hk & H). apply in_map_iff in H as (j' & E & Hj). injection E as -> ->. apply in_seq in Hk, Hj. lia.
  - intros [Hj Hk]. exists k. split; [apply in_seq; lia|]. apply in_map_iff. exists j. split; [reflexivity|apply in_seq; lia].
Qed.

(** ** The residual *)
(** However the grid is shared out, the points of every column get the rate of their own column. *)
Theorem c77_residual grid nX nY nZ lo ro bottom top front back surf he procs : cover procs nX nY nZ -> (0 < nX)%nat -> (0 < nY)%nat -> (0 < nZ)%nat ->
  exists rates, residualRates grid nX nY nZ lo ro bottom top front back surf he procs = Some rates /\
    (forall j k, (bottom <= j < nY - top)%nat -> (front <= k < nZ - back)%nat -> In (j, k) (map fst rates)) /\
    (forall j k r, In ((j, k), r) rates -> r = exp (-4 * nearHelium grid nX lo ro surf he j k)).
Proof.
  intros HC HX HY HZ. unfold residualRates.
  assert (NE : procs <> []) by (destruct HC as [_ HO]; destruct (HO 0%nat 0%nat 0%nat HY HZ HX) as (l1 & p & l2 & -> & _); destruct l1; discriminate).
  rewrite (reduce_map _ _ (residualAtoms grid nX lo ro surf he)) by exact NE. rewrite map_map, combine_map. eexists. split; [reflexivity|]. split.
  - intros j k Hj Hk. rewrite map_map. cbn [fst]. rewrite map_id. apply in_columns. lia.
  - intros j k r H. apply in_map_iff in H as ((j' & k') & E & H). injection E as -> -> <-. apply in_columns in H. unfold rateOf. f_equal. f_equal.
    unfold nearHelium. unfold residualAtoms. cbn [fst snd]. erewrite Rsum_ext by (intros; apply atoms_sum). rewrite Rsum_swap.
    apply Rsum_ext. intros xi Hx. apply in_seq in Hx. destruct HC as [_ HO]. destruct (HO j k xi) as (l1 & p & l2 & EP & H1 & H2); [lia..|].
    apply (one_of procs (fun p => owns p j k xi) _ l1 p l2 EP); [apply owns_iff, H1|intros q Hq; apply owns_not, H2, Hq].
Qed.
Print Assumptions c77_residual.

(** ** The Jacobian *)
(** When the grid is shared out along x only, the Jacobian uses the same rates. *)
Theorem c77_jacobian_partial grid nX nY nZ lo ro bottom top front back surf he procs : cover procs nX nY nZ -> (0 < nX)%nat -> (0 < nY)%nat -> (0 < nZ)%nat ->
  (forall p, In p procs -> ys p = 0%nat /\ ym p = nY /\ zs p = 0%nat /\ zm p = nZ) ->
  forall p, In p procs -> exists rates, jacobianRates grid nX nY nZ lo ro bottom top front back surf he procs p = Some rates /\
    (forall j k, (j < nY)%nat -> (k < nZ)%nat -> In (j, k) (map fst rates)) /\
    (forall j k r, In ((j, k), r) rates -> (bottom <= j < nY - top)%nat -> (front <= k < nZ - back)%nat -> r = exp (-4 * nearHelium grid nX lo ro surf he j k)).
Proof.
  intros HC HX HY HZ HW p Hp. unfold jacobianRates. set (cols := flat_map (fun k => map (fun j => (j, k)) (seq 0 nY)) (seq 0 nZ)).
  assert (JC : forall q, In q procs -> jacobianColumns q = cols) by (intros q Hq; unfold jacobianColumns; destruct (HW q Hq) as (-> & -> & -> & ->); reflexivity).
  assert (NE : procs <> []) by (destruct procs; [destruct Hp|discriminate]).
  rewrite (map_ext_in _ (fun q => map (jacobianAtoms grid nX nY nZ lo ro bottom top front back surf he q) cols)) by (intros q Hq; rewrite (JC q Hq); reflexivity).
  rewrite (reduce_map _ cols (jacobianAtoms grid nX nY nZ lo ro bottom top front back surf he)) by exact NE. rewrite (JC p Hp), map_map, combine_map. eexists. split; [reflexivity|]. split.
  - intros j k Hj Hk. rewrite map_map. cbn [fst]. rewrite map_id. apply in_columns. lia.
  - intros j k r H Bj Bk. apply in_map_iff in H as ((j' & k') & E & H). injection E as -> -> <-. apply in_columns in H. unfold rateOf. f_equal. f_equal.
    unfold nearHelium. unfold jacobianAtoms. cbn [fst snd]. erewrite Rsum_ext by (intros; apply atoms_sum). rewrite Rsum_swap.
    apply Rsum_ext. intros xi Hx. apply in_seq in Hx. destruct HC as [_ HO]. destruct (HO j k xi) as (l1 & q & l2 & EP & H1 & H2); [lia..|].
    rewrite (Rsum_ext procs _ (fun q => if inside (xs q) (xm q) xi then (if Rle_dec ((grid xi + grid (S xi)) / 2 - grid (S (surf j k))) 2 then he j k xi * (grid (S xi) - grid xi) else 0) else 0)).
    + apply (one_of procs (fun p => inside (xs p) (xm p) xi) _ l1 q l2 EP); [apply inside_iff, H1|]. intros q' Hq'.
      destruct (inside (xs q') (xm q') xi) eqn:EI; [|reflexivity]. apply inside_iff in EI. elim (H2 q' Hq'). unfold has.
      destruct (HW q') as (-> & -> & -> & ->); [rewrite EP; apply in_app_iff in Hq'; apply in_app_iff; cbn [In]; tauto|]. lia.
    + intros q' _. destruct (Nat.leb_spec bottom j); [|lia]. destruct (Nat.ltb_spec j (nY - top)); [|lia]. destruct (Nat.leb_spec front k); [|lia]. destruct (Nat.ltb_spec k (nZ - back)); [|lia].
      cbn [andb]. rewrite !Bool.andb_true_r. reflexivity.
Qed.
Print Assumptions c77_jacobian_partial.

(** Columns at the sides get the rate 1. *)
Theorem c77_sides grid nX nY nZ lo ro bottom top front back surf he procs p rates :
  (forall q, In q procs -> ys q = 0%nat /\ ym q = nY /\ zs q = 0%nat /\ zm q = nZ) -> In p procs ->
  jacobianRates grid nX nY nZ lo ro bottom top front back surf he procs p = Some rates ->
  forall j k r, In ((j, k), r) rates -> (j < bottom \/ nY - top <= j \/ k < front \/ nZ - back <= k)%nat -> r = 1.
Proof.
  intros HW Hp E j k r H Hout. unfold jacobianRates in E. set (cols := flat_map (fun k => map (fun j => (j, k)) (seq 0 nY)) (seq 0 nZ)) in *.
  assert (JC : forall q, In q procs -> jacobianColumns q = cols) by (intros q Hq; unfold jacobianColumns; destruct (HW q Hq) as (-> & -> & -> & ->); reflexivity).
  assert (NE : procs <> []) by (destruct procs; [destruct Hp|discriminate]).
  rewrite (map_ext_in _ (fun q => map (jacobianAtoms grid nX nY nZ lo ro bottom top front back surf he q) cols)) in E by (intros q Hq; rewrite (JC q Hq); reflexivity).
  rewrite (reduce_map _ cols (jacobianAtoms grid nX nY nZ lo ro bottom top front back surf he)) in E by exact NE. rewrite (JC p Hp), map_map, combine_map in E. injection E as <-.
  apply in_map_iff in H as ((j' & k') & E & _). injection E as -> -> <-. unfold rateOf. rewrite (Rsum_ext _ _ (fun _ => 0)).
  - replace (Rsum procs (fun _ => 0)) with 0 by (clear; induction procs as [|q l IH]; cbn; [reflexivity|rewrite <- IH; ring]). rewrite Rmult_0_r. apply exp_0.
  - intros q _. unfold jacobianAtoms. rewrite atoms_sum. rewrite (Rsum_ext _ _ (fun _ => 0)).
    + match goal with |- Rsum ?l _ = 0 => generalize l end. clear. intros l. induction l as [|x l IH]; cbn; [reflexivity|rewrite IH; ring].
    + intros xi _. cbn [fst snd]. destruct (inside (xs q) (xm q) xi); [|reflexivity].
      destruct (Nat.leb_spec bottom j), (Nat.ltb_spec j (nY - top)), (Nat.leb_spec front k), (Nat.ltb_spec k (nZ - back)); cbn [andb]; try reflexivity. lia.
Qed.
Print Assumptions c77_sides.

(** Two processes which have n columns each: both use, for their j-th column, the sum of the helium of the two columns. *)
Definition lower (nX n : nat) : proc := {| xs := 0; xm := nX; ys := 0; ym := n; zs := 0; zm := 1 |}.
Definition upper (nX n m : nat) : proc := {| xs := 0; xm := nX; ys := n; ym := m; zs := 0; zm := 1 |}.
Definition two (nX n : nat) : list proc := [lower nX n; upper nX n n].

Lemma two_cover nX n m : cover [lower nX n; upper nX n m] nX (n + m) 1.
Proof.
  split.
  - intros p [<-|[<-|[]]]; cbn; lia.
  - intros j k xi Hj Hk Hx. destruct (Nat.lt_ge_cases j n).
    + exists [], (lower nX n), [upper nX n m]. repeat split; cbn; try lia. intros q [<-|[]] H'. unfold has in H'. cbn in H'. lia.
    + exists [lower nX n], (upper nX n m), []. repeat split; cbn; try lia. intros q [<-|[]] H'. unfold has in H'. cbn in H'. lia.
Qed.
Lemma jac_atoms grid nX nY nZ lo ro surf he p j k : xs p = 0%nat -> xm p = nX -> (j < nY)%nat -> (k < nZ)%nat ->
  jacobianAtoms grid nX nY nZ lo ro 0 0 0 0 surf he p (j, k) = nearHelium grid nX lo ro surf he j k.
Proof.
  intros E1 E2 Hj Hk. unfold jacobianAtoms. rewrite atoms_sum. cbn [fst snd]. apply Rsum_ext. intros xi Hx. apply in_seq in Hx. rewrite E1, E2.
  replace (inside 0 nX xi) with true by (symmetry; apply inside_iff; lia). rewrite !Nat.sub_0_r. destruct (Nat.ltb_spec j nY); [|lia]. destruct (Nat.ltb_spec k nZ); [|lia]. reflexivity.
Qed.
Lemma seq_from n : forall a m, seq (a + n) m = map (fun j => n + j)%nat (seq a m).
Proof. intros a m. revert a. induction m as [|m IH]; intros a; [reflexivity|]. cbn [seq map]. f_equal; [lia|]. exact (IH (S a)). Qed.
Lemma two_rates grid nX n lo ro surf he p : In p (two nX n) ->
  jacobianRates grid nX (n + n) 1 lo ro 0 0 0 0 surf he (two nX n) p =
  Some (map (fun j => ((ys p + j, 0)%nat, exp (-4 * (nearHelium grid nX lo ro surf he j 0 + nearHelium grid nX lo ro surf he (n + j) 0)))) (seq 0 n)).
Proof.
  intros Hp. unfold jacobianRates.
  assert (EL : jacobianColumns (lower nX n) = map (fun j => (j, 0)%nat) (seq 0 n)) by (unfold jacobianColumns; cbn [lower ys ym zs zm seq flat_map]; apply app_nil_r).
  assert (EU : jacobianColumns (upper nX n n) = map (fun j => (n + j, 0)%nat) (seq 0 n)) by (unfold jacobianColumns; cbn [upper ys ym zs zm seq flat_map]; rewrite app_nil_r; change (seq n n) with (seq (0 + n) n); rewrite seq_from, map_map; reflexivity).
  assert (EP : jacobianColumns p = map (fun j => (ys p + j, 0)%nat) (seq 0 n)) by (destruct Hp as [<-|[<-|[]]]; assumption).
  rewrite EP. cbn [two map reduceAll]. rewrite EL, EU, !map_map, !map_length, Nat.eqb_refl, addAll_map, map_map. f_equal.
  assert (H : forall l, (forall j, In j l -> (j < n)%nat) -> combine (map (fun j => (ys p + j, 0)%nat) l)
    (map (fun x => rateOf (jacobianAtoms grid nX (n + n) 1 lo ro 0 0 0 0 surf he (lower nX n) (x, 0%nat) + jacobianAtoms grid nX (n + n) 1 lo ro 0 0 0 0 surf he (upper nX n n) ((n + x)%nat, 0%nat))) l) =
    map (fun j => ((ys p + j, 0)%nat, exp (-4 * (nearHelium grid nX lo ro surf he j 0 + nearHelium grid nX lo ro surf he (n + j) 0)))) l).
  - induction l as [|x l IH]; intros HL; [reflexivity|]. cbn [map combine]. rewrite IH by (intros j Hj; apply HL; right; exact Hj). f_equal. f_equal. unfold rateOf.
    pose proof (HL x (or_introl eq_refl)). rewrite !jac_atoms by (cbn; lia). reflexivity.
  - apply H. intros j Hj. apply in_seq in Hj. lia.
Qed.

Theorem c77_jacobian_refuted grid nX n lo ro surf he : (0 < nX)%nat ->
  cover (two nX n) nX (n + n) 1 /\
  forall j, (j < n)%nat ->
    (forall rates, jacobianRates grid nX (n + n) 1 lo ro 0 0 0 0 surf he (two nX n) (lower nX n) = Some rates -> forall r, In ((j, 0)%nat, r) rates ->
       r = exp (-4 * (nearHelium grid nX lo ro surf he j 0 + nearHelium grid nX lo ro surf he (n + j) 0)) /\
       (nearHelium grid nX lo ro surf he (n + j) 0 <> 0 ->
        forall res, residualRates grid nX (n + n) 1 lo ro 0 0 0 0 surf he (two nX n) = Some res -> ~ In ((j, 0)%nat, r) res)) /\
    (exists rates, jacobianRates grid nX (n + n) 1 lo ro 0 0 0 0 surf he (two nX n) (lower nX n) = Some rates /\ In (j, 0)%nat (map fst rates)).
Proof.
  intros HX. split; [apply two_cover|]. intros j Hj.
  assert (HT : In (lower nX n) (two nX n)) by (left; reflexivity). split.
  - intros rates E r Hr. rewrite (two_rates _ _ _ _ _ _ _ _ HT) in E. injection E as <-. apply in_map_iff in Hr as (j' & E & _). cbn [lower ys] in E. injection E as -> <-.
    split; [reflexivity|]. intros N res ER HI. destruct (c77_residual grid nX (n + n) 1 lo ro 0 0 0 0 surf he (two nX n)) as (res' & ER' & _ & HV); [apply two_cover|lia..|].
    rewrite ER in ER'. injection ER' as <-. apply HV in HI. apply exp_inv in HI. apply N. lra.
  - eexists. split; [apply (two_rates _ _ _ _ _ _ _ _ HT)|]. rewrite map_map. apply in_map_iff. exists j. split; [reflexivity|apply in_seq; lia].
Qed.
Print Assumptions c77_jacobian_refuted.

(** Processes with different numbers of columns do not make the same number of collective calls. *)
Theorem c77_deadlock_refuted grid nX n m lo ro bottom top surf he p : n <> m ->
  cover [lower nX n; upper nX n m] nX (n + m) 1 /\
  jacobianRates grid nX (n + m) 1 lo ro bottom top 0 0 surf he [lower nX n; upper nX n m] p = None.
Proof.
  intros N. split; [apply two_cover|]. unfold jacobianRates. cbn [map reduceAll].
  unfold jacobianColumns. cbn [lower upper ys ym zs zm seq flat_map]. rewrite !app_nil_r, !map_length, !seq_length.
  destruct (Nat.eqb_spec n m); [contradiction|reflexivity].
Qed.
Print Assumptions c77_deadlock_refuted.

(** ** The matrix *)
(** The entry of the mutating cluster is the derivative of the flux at a given attenuation. *)
Theorem c77_entry rate att heId id x : (id = heId -> derivable_pt_lim (mutationFlux rate att) x (mutationEntry rate att heId id)) /\
  (id <> heId -> mutationEntry rate att heId id = 0).
Proof.
  unfold mutationEntry. split; intros E; destruct (Nat.eqb_spec id heId); try contradiction; [|reflexivity].
  intros eps He. exists (mkposreal 1 Rlt_0_1). intros h Hh _. unfold mutationFlux. replace (_ - _) with 0 by (field; exact Hh). rewrite Rabs_R0. exact He.
Qed.
Print Assumptions c77_entry.
(** [c]: the concentration of a cluster with [size] helium atoms at a point of width [w] near the surface; [rest]: the helium of
    the other clusters. The flux of trap mutation depends on it, and no entry of the matrix says so. *)
Theorem c77_derivative_refuted rate cHe size w rest c heId id : rate <> 0 -> cHe <> 0 -> size <> 0 -> w <> 0 -> id <> heId ->
  exists d, derivable_pt_lim (fun c => mutationFlux rate (exp (-4 * (rest + size * c * w))) cHe) c d /\ d <> 0 /\
    mutationEntry rate (exp (-4 * (rest + size * c * w))) heId id = 0.
Proof.
  intros H1 H2 H3 H4 H5. exists (rate * (exp (-4 * (rest + size * c * w)) * (-4 * size * w)) * cHe). split; [|split].
  - assert (L : derivable_pt_lim (fun c => -4 * (rest + size * c * w)) c (-4 * size * w)).
    { intros eps He. exists (mkposreal 1 Rlt_0_1). intros h Hh _. replace (_ - _) with 0 by (field; exact Hh). rewrite Rabs_R0. exact He. }
    assert (D := derivable_pt_lim_scal _ (rate * cHe) _ _ (derivable_pt_lim_comp _ exp _ _ _ L (derivable_pt_lim_exp (-4 * (rest + size * c * w))))).
    intros eps He. destruct (D eps He) as [dl Hd]. exists dl. intros h Hh Hs. specialize (Hd h Hh Hs). unfold mult_real_fct, comp in Hd. unfold mutationFlux.
    replace (_ - _) with ((rate * cHe * exp (-4 * (rest + size * (c + h) * w)) - rate * cHe * exp (-4 * (rest + size * c * w))) / h -
      rate * cHe * (exp (-4 * (rest + size * c * w)) * (-4 * size * w))) by (field; exact Hh). exact Hd.
  - pose proof (exp_pos (-4 * (rest + size * c * w))) as P.
    repeat apply Rmult_integral_contrapositive_currified; lra.
  - unfold mutationEntry. destruct (Nat.eqb_spec id heId); [contradiction|reflexivity].
Qed.
Print Assumptions c77_derivative_refuted.

(** ** Examples *)
(** Five points half a nanometer apart on 4 columns; surfaces at 0, 0, 1, 1; helium (j + 1). *)
Definition eg (i : nat) : R := INR i / 2.
Definition es (j k : nat) : nat := (j / 2)%nat.
Definition eh (j k xi : nat) : R := INR (j + 1).
Lemma eg_near a b : (b <= a + 4)%nat -> (eg b + eg (S b)) / 2 - eg (S a) <= 2.
Proof. intros H. unfold eg. rewrite !S_INR. apply le_INR in H. rewrite plus_INR in H. cbn [INR] in H. lra. Qed.
Lemma near0 : nearHelium eg 6 1 1 es eh 0 0 = 2.
Proof.
  unfold nearHelium. replace (es 0 0) with 0%nat by reflexivity. cbn [Nat.add Nat.sub seq Rsum].
  repeat match goal with |- context[Rle_dec ?a 2] => destruct (Rle_dec a 2) as [_|N]; [|elim N; apply eg_near; lia] end.
  unfold eh, eg. cbn [INR Nat.add]. lra.
Qed.
Lemma near2 : nearHelium eg 6 1 1 es eh 2 0 = 9 / 2.
Proof.
  unfold nearHelium. replace (es 2 0) with 1%nat by reflexivity. cbn [Nat.add Nat.sub seq Rsum].
  repeat match goal with |- context[Rle_dec ?a 2] => destruct (Rle_dec a 2) as [_|N]; [|elim N; apply eg_near; lia] end.
  unfold eh, eg. cbn [INR Nat.add]. lra.
Qed.
(** With two columns on each of two processes the residual uses exp(-8) for column 0 and the Jacobian exp(-26). *)
Example c77_jacobian_ex :
  (exists res, residualRates eg 6 4 1 1 1 0 0 0 0 es eh (two 6 2) = Some res /\ forall r, In ((0, 0)%nat, r) res -> r = exp (-8)) /\
  (exists jac, jacobianRates eg 6 4 1 1 1 0 0 0 0 es eh (two 6 2) (lower 6 2) = Some jac /\ forall r, In ((0, 0)%nat, r) jac -> r = exp (-26)).
Proof.
  split.
  - destruct (c77_residual eg 6 4 1 1 1 0 0 0 0 es eh (two 6 2) (two_cover 6 2 2)) as (res & E & _ & H); [lia..|]. exists res. split; [exact E|]. intros r Hr. rewrite (H _ _ _ Hr), near0. f_equal. lra.
  - destruct (c77_jacobian_refuted eg 6 2 1 1 es eh) as [_ H]; [lia|]. destruct (H 0%nat) as [H1 (jac & E & _)]; [lia|]. exists jac. split; [exact E|]. intros r Hr.
    destruct (H1 jac E r Hr) as [-> _]. cbn [Nat.add]. rewrite near0, near2. f_equal. lra.
Qed.
(** Two processes which share the points of each column. *)
Example c77_jacobian_ok : exists jac,
  jacobianRates eg 6 2 1 1 1 0 0 0 0 es eh [{| xs := 0; xm := 3; ys := 0; ym := 2; zs := 0; zm := 1 |}; {| xs := 3; xm := 3; ys := 0; ym := 2; zs := 0; zm := 1 |}]
    {| xs := 3; xm := 3; ys := 0; ym := 2; zs := 0; zm := 1 |} = Some jac /\ In (0, 0)%nat (map fst jac) /\ forall r, In ((0, 0)%nat, r) jac -> r = exp (-8).
Proof.
  destruct (c77_jacobian_partial eg 6 2 1 1 1 0 0 0 0 es eh
    [{| xs := 0; xm := 3; ys := 0; ym := 2; zs := 0; zm := 1 |}; {| xs := 3; xm := 3; ys := 0; ym := 2; zs := 0; zm := 1 |}]) with (p := {| xs := 3; xm := 3; ys := 0; ym := 2; zs := 0; zm := 1 |}) as (jac & E & H1 & H2); [|lia..| | |].
  - split; [intros p [<-|[<-|[]]]; cbn; lia|]. intros j k xi Hj Hk Hx. destruct (Nat.lt_ge_cases xi 3).
    + eexists [], _, [_]. split; [reflexivity|]. split; [unfold has; cbn; lia|]. intros q [<-|[]] H'. unfold has in H'. cbn in H'. lia.
    + eexists [_], _, []. split; [reflexivity|]. split; [unfold has; cbn; lia|]. intros q [<-|[]] H'. unfold has in H'. cbn in H'. lia.
  - intros p [<-|[<-|[]]]; cbn; lia.
  - right. left. reflexivity.
  - exists jac. split; [exact E|]. split; [apply H1; lia|]. intros r Hr. rewrite (H2 _ _ _ Hr) by lia. rewrite near0. f_equal. lra.
Qed.
Example c77_deadlock_ex : jacobianRates eg 6 3 1 1 1 0 0 0 0 es eh [lower 6 2; upper 6 2 1] (lower 6 2) = None.
Proof. apply (c77_deadlock_refuted eg 6 2 1 1 1 0 0 es eh (lower 6 2)). lia. Qed.
Example c77_sides_ok : let p := {| xs := 0; xm := 6; ys := 0; ym := 2; zs := 0; zm := 1 |} in exists jac,
  jacobianRates eg 6 2 1 1 1 1 0 0 0 es eh [p] p = Some jac /\ In (0, 0)%nat (map fst jac) /\ forall r, In ((0, 0)%nat, r) jac -> r = 1.
Proof.
  intros p. destruct (jacobianRates eg 6 2 1 1 1 1 0 0 0 es eh [p] p) as [jac|] eqn:E; [|discriminate E]. exists jac. split; [reflexivity|]. split.
  - injection E as <-. left. reflexivity.
  - intros r Hr. refine (c77_sides eg 6 2 1 1 1 1 0 0 0 es eh [p] p jac _ (or_introl eq_refl) E 0%nat 0%nat r Hr _); [intros q [<-|[]]; cbn; lia|lia].
Qed.
Example c77_entry_ok : mutationFlux 3 0.5 10 = 15 /\ mutationEntry 3 0.5 7 7 = 1.5 /\ mutationEntry 3 0.5 7 8 = 0.
Proof. unfold mutationFlux, mutationEntry. cbn. lra. Qed.
