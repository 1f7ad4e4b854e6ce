(** C68: the retention output in one dimension. *)
From Verif Require Import RetentionModel RetentionProofs Solver1DProofs StencilProofs.
Open Scope R_scope.

(** ** Reference *)
(** The amount of species [s] in cluster [l]; a cluster of one species. *)
Definition amount (origin : nat -> list Z) (l s : nat) : R := IZR (nth s (origin l) 0%Z).
Definition pure (ns : nat) (origin : nat -> list Z) (l : nat) : Prop :=
  exists s, (s < ns)%nat /\ nth s (origin l) 0%Z <> 0%Z /\ forall t, t <> s -> nth t (origin l) 0%Z = 0%Z.
(** The processes own the points 0, ..., nX - 1 in order. *)
Definition cover (procs : list proc) (nX : nat) : Prop :=
  flat_map (fun p => seq (xs p) (xm p)) procs = seq 0 nX.

(** ** The content *)
Theorem c68_content grid nX lo ro tot procs s : cover procs nX -> (lo + ro <= nX)%nat ->
  content grid nX lo ro tot procs s =
  Rsum (seq lo (nX - lo - ro)) (fun xi => tot xi s * (grid (S xi) - grid xi)).
Proof.
  intros Hc H. rewrite content_sum by exact Hc.
  replace nX with (lo + (nX - lo - ro) + ro)%nat at 1 by lia. rewrite seq_band, !Rsum_app.
  rewrite (Rsum_zero (seq 0 lo)), (Rsum_zero (seq (lo + _) ro)).
  - rewrite Rplus_0_l, Rplus_0_r. apply Rsum_ext. intros x Hx. apply in_seq in Hx.
    destruct (Nat.ltb_spec x lo); [lia|]. destruct (Nat.leb_spec (nX - ro) x); [lia|]. cbn [orb].
    replace (x + 1)%nat with (S x) by lia. reflexivity.
  - intros x Hx. apply in_seq in Hx. destruct (Nat.leb_spec (nX - ro) x); [|lia]. rewrite Bool.orb_true_r. reflexivity.
  - intros x Hx. apply in_seq in Hx. destruct (Nat.ltb_spec x lo); [reflexivity|lia].
Qed.
Example c68_content_ok : cover [Proc 0 2; Proc 2 3] 5 /\
  content INR 5 1 1 (fun xi s => INR (xi + s)) [Proc 0 2; Proc 2 3] 0 = 6.
Proof.
  split; [reflexivity|]. rewrite c68_content by (try reflexivity; lia). cbn [seq Nat.sub Rsum Nat.add INR]. lra.
Qed.

(** ** The reported fluxes *)
Section FLUX.
Variables (ns : nat) (origin : nat -> list Z) (grid : nat -> R) (nX : nat).
Variables (dif : list nat) (adv : list (nat * R)) (loc_ : R).
(** What the output counts at the two sides, with the coefficients of the points [x0], [x1]. *)
Definition leftFlux (x0 : nat) (o : out) (s : nat) : R :=
  Rsum dif (fun l => amount origin l s * (4 / (grid 2%nat - grid 0%nat + (grid 3%nat - grid 1%nat)) * oD o l x0 * oC o l 1%nat)) +
  Rsum adv (fun a => amount origin (fst a) s *
    (3 * snd a * oD o (fst a) x0 * oC o (fst a) 1%nat / (kB * oT o x0 * ((grid 2%nat - grid 1%nat) / 2 - loc_) ^ 4))).
Definition rightFlux (x1 : nat) (o : out) (s : nat) : R :=
  Rsum dif (fun l => amount origin l s *
    (4 / (grid (nX - 1)%nat - grid (nX - 3)%nat + (grid nX - grid (nX - 2)%nat)) * oD o l x1 * oC o l (nX - 2)%nat)).
Hypothesis dp : forall l, In l dif -> pure ns origin l.
Hypothesis ap : forall a, In a adv -> pure ns origin (fst a).

Theorem c68_surface p o s : (forall i, grid i < grid (S i)) -> (1 < nX)%nat -> loc_ < (grid 2%nat - grid 1%nat) / 2 ->
  owns p 1 = true -> 0 < oT o 0%nat ->
  surfFlux ns origin grid nX dif adv loc_ p o s = leftFlux 0 o s.
Proof using dp ap.
  intros Hg Hn Hl Ho HT. unfold surfFlux. apply andb_prop in Ho. destruct Ho as [Ho _]. apply Nat.leb_le in Ho.
  assert (E : forall v : nat -> R, stored p v (1 - xs p) = v 0%nat) by (intros v; unfold stored; f_equal; lia).
  rewrite adv_pure; [|rewrite E; auto|exact ap].
  rewrite diff_pure by exact dp. rewrite Rplus_0_l. unfold leftFlux. pose proof kB_pos. f_equal; apply Rsum_ext; intros l Hi.
  - fold (amount origin l s). rewrite E. unfold factor, hxLeft, hxRight, amount, RetentionProofs.amount.
    destruct (Nat.ltb_spec 1 nX); [|lia]. cbn [Nat.leb Nat.add Nat.sub].
    pose proof (Hg 0%nat). pose proof (Hg 1%nat). pose proof (Hg 2%nat). field. repeat split; lra.
  - rewrite !E. unfold advFactor, distance, amount, RetentionProofs.amount. cbn [Nat.add].
    replace ((grid 1%nat + grid 2%nat) / 2 - grid 1%nat - loc_) with ((grid 2%nat - grid 1%nat) / 2 - loc_) by lra.
    field. repeat split; lra.
Qed.
Theorem c68_bulk p o s : (forall i, grid i < grid (S i)) -> (3 <= nX)%nat -> owns p (nX - 2) = true ->
  bulkFlux ns origin grid nX dif p o s = rightFlux (nX - 3) o s.
Proof using dp.
  intros Hg Hn Ho. unfold bulkFlux. apply andb_prop in Ho. destruct Ho as [Ho _]. apply Nat.leb_le in Ho.
  rewrite diff_pure by exact dp. rewrite Rplus_0_l. apply Rsum_ext. intros l Hl.
  unfold stored. replace (xs p + (nX - 2 - xs p) - 1)%nat with (nX - 3)%nat by lia.
  unfold factor, hxLeft, hxRight, amount, RetentionProofs.amount.
  destruct (Nat.ltb_spec (nX - 2) nX); [|lia]. destruct (Nat.leb_spec 1 (nX - 2)); [|lia].
  replace (nX - 2 + 1)%nat with (nX - 1)%nat by lia. replace (nX - 2 - 1)%nat with (nX - 3)%nat by lia.
  replace (nX - 2 + 2)%nat with nX by lia.
  pose proof (Hg (nX - 3)%nat). pose proof (Hg (nX - 2)%nat). pose proof (Hg (nX - 1)%nat).
  replace (S (nX - 3)) with (nX - 2)%nat in * by lia. replace (S (nX - 2)) with (nX - 1)%nat in * by lia.
  replace (S (nX - 1)) with nX in * by lia. field. repeat split; lra.
Qed.
End FLUX.

(** A network of two species (say He and V) for the examples: He_1, He_2, V_1. *)
Definition exOrigin (l : nat) : list Z :=
  match l with 0%nat => [1; 0]%Z | 1%nat => [2; 0]%Z | _ => [0; 1]%Z end.
Lemma exPure l : pure 2 exOrigin l.
Proof.
  destruct l as [|[|l]]; [exists 0%nat|exists 0%nat|exists 1%nat]; cbn; (split; [lia|split; [lia|]]);
    intros [|[|[|t]]] H; cbn; congruence.
Qed.

(** What left per unit of time: with a uniform grid and temperature, the transport terms
    of the solver change the content by exactly the two reported fluxes. *)
Theorem c68_rate ns origin g0 h nX dif adv loc_ o s :
  let grid := fun i => g0 + INR i * h in
  0 < h -> (3 <= nX)%nat -> loc_ < h / 2 ->
  (forall l, In l dif -> pure ns origin l) -> (forall a, In a adv -> pure ns origin (fst a)) ->
  (forall l i, oD o l i = oD o l 0%nat) -> (forall i, oT o i = oT o 0%nat) -> 0 < oT o 0%nat ->
  (forall l, oC o l 0%nat = 0) -> (forall l, oC o l (nX - 1)%nat = 0) ->
  forall p q, owns p 1 = true -> owns q (nX - 2) = true ->
  Rsum (seq 1 (nX - 2)) (fun xi => (grid (S xi) - grid xi) *
    (Rsum dif (fun l => amount origin l s * diffAt grid nX (oD o l) (fun _ => 1) (oC o l) xi) +
     Rsum adv (fun a => amount origin (fst a) s * advAt grid nX loc_ (snd a) (oD o (fst a)) (oT o) (fun _ => 1) (oC o (fst a)) xi))) =
  - (surfFlux ns origin grid nX dif adv loc_ p o s + bulkFlux ns origin grid nX dif q o s).
Proof.
  intros grid Hh Hn Hl Hd Ha HD HT HT0 C0 C1 p q Hp Hq. pose proof kB_pos as HK.
  assert (Hg : forall i, grid i < grid (S i)) by (intros i; unfold grid; rewrite S_INR; nra).
  assert (Hw : forall i, grid (S i) - grid i = h) by (intros i; unfold grid; rewrite S_INR; ring).
  assert (Hc : forall i, cellWidth grid i = h) by (intros i; unfold cellWidth; replace (i + 1)%nat with (S i) by lia; auto).
  assert (Hr : forall i, hxRight grid nX i = h).
  { intros i. unfold hxRight, grid. rewrite !plus_INR. cbn [INR]. destruct (i <? nX)%nat; lra. }
  assert (Hlf : forall i, hxLeft grid i = h).
  { intros i. unfold hxLeft, grid. destruct (Nat.leb_spec 1 i); [|rewrite plus_INR; cbn [INR]; lra].
    rewrite plus_INR, minus_INR by lia. cbn [INR]. lra. }
  rewrite (c68_surface ns origin grid nX dif adv loc_ Hd Ha); auto; [|lia|rewrite Hw; lra].
  rewrite (c68_bulk ns origin grid nX dif Hd); auto.
  rewrite (Rsum_ext _ _ (fun xi =>
    Rsum dif (fun l => amount origin l s * (cellWidth grid xi * diffAt grid nX (oD o l) (fun _ => 1) (oC o l) xi)) +
    Rsum adv (fun a => amount origin (fst a) s * (hxRight grid nX xi * advAt grid nX loc_ (snd a) (oD o (fst a)) (oT o) (fun _ => 1) (oC o (fst a)) xi)))).
  2:{ intros xi _. rewrite Hw, Hc, Hr, Rmult_plus_distr_l, <- !Rsum_scal. f_equal; apply Rsum_ext; intros; ring. }
  rewrite Rsum_plus, !(Rsum_swap (seq 1 (nX - 2))).
  rewrite (Rsum_ext dif _ (fun l => amount origin l s * (oD o l 0%nat * (- oC o l (nX - 2)%nat / h - oC o l 1%nat / h)))).
  2:{ intros l _. rewrite Rsum_scal. f_equal. replace (nX - 2)%nat with (S (nX - 3)) by lia.
      rewrite (diff_conserved_cells grid nX Hg) by (try (intros; rewrite !Hc; lra); auto; lia).
      rewrite Hr, Hlf. replace (S (1 + (nX - 3))) with (nX - 1)%nat by lia. rewrite C0, C1.
      replace (1 + (nX - 3))%nat with (S (nX - 3)) by lia. field. lra. }
  rewrite (Rsum_ext adv _ (fun a => amount origin (fst a) s * (3 * snd a * oD o (fst a) 0%nat / (kB * oT o 0%nat) * (- oC o (fst a) 1%nat / (h / 2 - loc_) ^ 4)))).
  2:{ intros a _. rewrite Rsum_scal. f_equal. replace (nX - 2)%nat with (S (nX - 3)) by lia.
      rewrite (adv_conserved grid nX Hg); auto; [|lia|lra|].
      - replace (S (1 + (nX - 3))) with (nX - 1)%nat by lia. rewrite C1. unfold position, grid. cbn [Nat.add INR].
        replace ((g0 + 1 * h + (g0 + (1 + 1) * h)) / 2 - (g0 + 1 * h)) with (h / 2) by lra. field. split; [lra|].
        split; [lra|]. split; [lra|]. unfold position, grid in *.
        rewrite !plus_INR, minus_INR by lia. apply le_INR in Hn. cbn [INR] in *. nra.
      - intros xi Hx. unfold position, grid. rewrite plus_INR. apply le_INR in Hx. cbn [INR] in *. nra. }
  unfold leftFlux, rightFlux. rewrite !Hw.
  rewrite Ropp_plus_distr, Ropp_plus_distr, <- !Rsum_opp.
  assert (F : 4 / (grid 2%nat - grid 0%nat + (grid 3%nat - grid 1%nat)) = / h).
  { unfold grid. cbn [INR]. field. lra. }
  assert (G : 4 / (grid (nX - 1)%nat - grid (nX - 3)%nat + (grid nX - grid (nX - 2)%nat)) = / h).
  { unfold grid. rewrite !minus_INR by lia. cbn [INR]. field. lra. }
  rewrite F, G.
  match goal with |- ?a + ?b = ?c + ?d + ?e => assert (E1 : a = c + e); [|assert (E2 : b = d); [|rewrite E1, E2; ring]] end.
  - rewrite <- Rsum_plus. apply Rsum_ext. intros l _. rewrite (HD l (nX - 3)%nat). field. lra.
  - apply Rsum_ext. intros a _. field. repeat split; lra.
Qed.
Definition exOut (dt : R) (a : nat -> R) : out :=
  Out dt (fun l i => if (1 <=? i)%nat && (i <=? 2)%nat then a (l + i)%nat else 0) (fun l _ => INR (S l)) (fun _ => 1000).
Example c68_rate_ok (a : nat -> R) : let o := exOut 1 a in
  (forall l i, oD o l i = oD o l 0%nat) /\ (forall i, oT o i = oT o 0%nat) /\ 0 < oT o 0%nat /\
  (forall l, oC o l 0%nat = 0) /\ (forall l, oC o l 3%nat = 0) /\ owns (Proc 0 2) 1 = true /\ owns (Proc 2 2) 2 = true /\
  surfFlux 2 exOrigin (fun i => 0 + INR i * (1/2)) 4 [0; 1; 2]%nat [] 0 (Proc 0 2) o 0 = 2 * a 1%nat + 8 * a 2%nat /\
  bulkFlux 2 exOrigin (fun i => 0 + INR i * (1/2)) 4 [0; 1; 2]%nat (Proc 2 2) o 1 = 6 * a 4%nat.
Proof.
  cbn zeta. repeat split; try reflexivity; [cbn [exOut oT]; lra| |].
  - rewrite c68_surface; auto; try lia.
    + unfold leftFlux, amount, exOrigin, exOut. cbn [Rsum oC oD oT nth Nat.leb andb INR Nat.add]. lra.
    + intros; apply exPure.
    + intros x [].
    + intros i. rewrite S_INR. lra.
    + cbn [INR]. lra.
    + cbn [exOut oT]. lra.
  - rewrite c68_bulk; auto.
    + unfold rightFlux, amount, exOrigin, exOut. cbn [Rsum oC oD nth Nat.leb Nat.sub andb INR Nat.add]. lra.
    + intros; apply exPure.
    + intros i. rewrite S_INR. lra.
Qed.

(** ** Accumulation over a run *)
(** Every process ends with the same totals: those at the start plus, for every step,
    its length times the flux at its beginning; interstitials are left out when the
    surface moves. *)
Theorem c68_accumulated ns origin grid nX dif adv loc_ procs moving specI os st :
  cover procs nX -> (1 < nX)%nat -> (forall i, grid i < grid (S i)) -> loc_ < (grid 2%nat - grid 1%nat) / 2 ->
  (forall l, In l dif -> pure ns origin l) -> (forall a, In a adv -> pure ns origin (fst a)) ->
  (forall o, In o os -> 0 < oT o 0%nat) ->
  exists st', surface ns origin grid nX dif adv loc_ moving specI procs 0 os (repeat st (length procs)) =
              Some (repeat st' (length procs)) /\
  forall s, total st' s = total st s + if Nat.eqb s specI && moving then 0 else
    Rsum (combine os (tl os)) (fun oo => odt (snd oo) * leftFlux origin grid dif adv loc_ 0 (fst oo) s).
Proof.
  intros Hc Hn Hg Hl Hd Ha HT. unfold surface.
  assert (E : forall o p s, In o os -> owns p 1 = true ->
     surfFlux ns origin grid nX dif adv loc_ p o s = leftFlux origin grid dif adv loc_ 0 o s).
  { intros o p s Ho Hp. apply (c68_surface ns origin grid nX dif adv loc_ Hd Ha); auto. }
  destruct (monitor_run_in nX 1 (fun i => Nat.eqb i specI && moving) (surfFlux ns origin grid nX dif adv loc_) procs
    (leftFlux origin grid dif adv loc_ 0) Hc Hn os E 0%nat st) as (st' & R1 & R2 & R3).
  exists st'. split; auto. intros s. destruct (Nat.eqb s specI && moving) eqn:F.
  - rewrite (proj1 (R2 s F)). lra.
  - rewrite (R3 s F). destruct os as [|o r]; cbn [tl combine Nat.ltb Nat.leb]; [reflexivity|].
    rewrite Rplus_0_l. f_equal. apply Rsum_ext. intros; ring.
Qed.
Theorem c68_bulk_accumulated ns origin grid nX dif procs os st :
  cover procs nX -> (3 <= nX)%nat -> (forall i, grid i < grid (S i)) ->
  (forall l, In l dif -> pure ns origin l) ->
  exists st', bulk ns origin grid nX dif procs 0 os (repeat st (length procs)) = Some (repeat st' (length procs)) /\
  forall s, total st' s = total st s +
    Rsum (combine os (tl os)) (fun oo => odt (snd oo) * rightFlux origin grid nX dif (nX - 3) (fst oo) s).
Proof.
  intros Hc Hn Hg Hd. unfold bulk.
  assert (E : forall o p s, In o os -> owns p (nX - 2) = true ->
     bulkFlux ns origin grid nX dif p o s = rightFlux origin grid nX dif (nX - 3) o s).
  { intros o p s Ho Hp. apply (c68_bulk ns origin grid nX dif Hd); auto. }
  destruct (monitor_run_in nX (nX - 2) (fun _ => false) (bulkFlux ns origin grid nX dif) procs
    (rightFlux origin grid nX dif (nX - 3)) Hc ltac:(lia) os E 0%nat st) as (st' & R1 & R2 & R3).
  exists st'. split; auto. intros s. rewrite (R3 s eq_refl).
  destruct os as [|o r]; cbn [tl combine Nat.ltb Nat.leb]; [reflexivity|].
  rewrite Rplus_0_l. f_equal. apply Rsum_ext. intros; ring.
Qed.
Example c68_accumulated_ok (a : nat -> R) st : exists st',
  surface 2 exOrigin (fun i => INR i * (1/2)) 4 [0; 1; 2]%nat [] 0 false 1 [Proc 0 1; Proc 1 3] 0
    [exOut 0 a; exOut 3 a; exOut 5 (fun _ => 0)] [st; st] = Some [st'; st'] /\
  total st' 0%nat = total st 0%nat + 8 * (2 * a 1%nat + 8 * a 2%nat).
Proof.
  destruct (c68_accumulated 2 exOrigin (fun i => INR i * (1/2)) 4 [0; 1; 2]%nat [] 0 [Proc 0 1; Proc 1 3] false 1
              [exOut 0 a; exOut 3 a; exOut 5 (fun _ => 0)] st) as (st' & E & H).
  - reflexivity.
  - lia.
  - intros i. rewrite S_INR. lra.
  - cbn [INR]. lra.
  - intros; apply exPure.
  - intros x [].
  - intros o [<-|[<-|[<-|[]]]]; cbn [exOut oT]; lra.
  - exists st'. split; [exact E|]. rewrite H. unfold leftFlux, amount, exOrigin, exOut.
    cbn [tl combine Rsum fst snd odt oC oD oT nth Nat.leb andb INR Nat.add Nat.eqb]. lra.
Qed.

Lemma last_cons (A : Type) : forall (r : list A) x d, last (x :: r) d = last r x.
Proof.
  induction r as [|y r IH]; intros x d; [reflexivity|]. change (last (x :: y :: r) d) with (last (y :: r) d).
  rewrite !IH. reflexivity.
Qed.
(** The balance of a run with the implicit steps of the solver: what is in the material
    and what the output counts as gone is what was there and what came in, up to the
    change of the outgoing flux over each step. *)
Theorem c68_balance ns origin grid nX dif adv loc_ procs moving specI o r st st1 st2 (m src : out -> R) s :
  cover procs nX -> (3 <= nX)%nat -> (forall i, grid i < grid (S i)) -> loc_ < (grid 2%nat - grid 1%nat) / 2 ->
  (forall l, In l dif -> pure ns origin l) -> (forall a, In a adv -> pure ns origin (fst a)) ->
  (forall o', In o' (o :: r) -> 0 < oT o' 0%nat) -> s <> specI \/ moving = false ->
  let gone := fun o => leftFlux origin grid dif adv loc_ 0 o s + rightFlux origin grid nX dif (nX - 3) o s in
  (forall o1 o2, In (o1, o2) (combine (o :: r) r) -> m o2 = m o1 + odt o2 * (src o2 - gone o2)) ->
  surface ns origin grid nX dif adv loc_ moving specI procs 0 (o :: r) (repeat st (length procs)) = Some (repeat st1 (length procs)) ->
  bulk ns origin grid nX dif procs 0 (o :: r) (repeat st (length procs)) = Some (repeat st2 (length procs)) ->
  total st s = 0 ->
  m (last r o) + (total st1 s + total st2 s) =
    m o + Rsum r (fun o2 => odt o2 * src o2) + Rsum (combine (o :: r) r) (fun oo => odt (snd oo) * (gone (fst oo) - gone (snd oo))).
Proof.
  intros Hc Hn Hg Hl Hd Ha HT Hs gone Hm E1 E2 H0.
  destruct (c68_accumulated ns origin grid nX dif adv loc_ procs moving specI (o :: r) st) as (s1 & F1 & T1); auto; [lia|].
  destruct (c68_bulk_accumulated ns origin grid nX dif procs (o :: r) st) as (s2 & F2 & T2); auto.
  rewrite E1 in F1. rewrite E2 in F2. injection F1 as F1. injection F2 as F2.
  assert (L : (0 < length procs)%nat).
  { destruct procs; [|cbn; lia]. unfold cover in Hc. destruct nX; [lia|]. discriminate. }
  assert (st1 = s1) by (destruct (length procs); [lia|]; cbn [repeat] in F1; congruence).
  assert (st2 = s2) by (destruct (length procs); [lia|]; cbn [repeat] in F2; congruence). subst s1 s2.
  rewrite T1, T2, H0.
  replace (Nat.eqb s specI && moving)%bool with false.
  2:{ destruct Hs as [Hs| ->]; [|destruct (Nat.eqb s specI); reflexivity]. apply Nat.eqb_neq in Hs. rewrite Hs. reflexivity. }
  cbn [tl].
  transitivity (m (last r o) + Rsum (combine (o :: r) r) (fun oo => odt (snd oo) * gone (fst oo))).
  { rewrite (Rsum_ext (combine (o :: r) r) (fun oo => odt (snd oo) * gone (fst oo))
      (fun oo => odt (snd oo) * leftFlux origin grid dif adv loc_ 0 (fst oo) s +
                 odt (snd oo) * rightFlux origin grid nX dif (nX - 3) (fst oo) s)); [|intros; unfold gone; ring].
    rewrite Rsum_plus. ring. }
  clear - Hm. revert o Hm. induction r as [|o2 r IH]; intros o Hm; [cbn; lra|].
  specialize (IH o2 (fun a b H => Hm a b (or_intror H))).
  rewrite last_cons. change (combine (o :: o2 :: r) (o2 :: r)) with ((o, o2) :: combine (o2 :: r) r). cbn [Rsum fst snd].
  pose proof (Hm o o2 (or_introl eq_refl)) as E. lra.
Qed.
(** With steps of one length only the first and the last flux remain. *)
Lemma telescope (dt : R) (g : out -> R) : forall r o, (forall x, In x r -> odt x = dt) ->
  Rsum (combine (o :: r) r) (fun oo => odt (snd oo) * (g (fst oo) - g (snd oo))) = dt * (g o - g (last r o)).
Proof.
  induction r as [|x r IH]; intros o H; [cbn; lra|].
  change (combine (o :: x :: r) (x :: r)) with ((o, x) :: combine (x :: r) r). cbn [Rsum fst snd].
  rewrite IH by (intros; apply H; right; auto). rewrite (H x) by (left; auto).
  rewrite last_cons. ring.
Qed.
Theorem c68_balance_constant ns origin grid nX dif adv loc_ procs moving specI o r st st1 st2 (m src : out -> R) s dt :
  cover procs nX -> (3 <= nX)%nat -> (forall i, grid i < grid (S i)) -> loc_ < (grid 2%nat - grid 1%nat) / 2 ->
  (forall l, In l dif -> pure ns origin l) -> (forall a, In a adv -> pure ns origin (fst a)) ->
  (forall o', In o' (o :: r) -> 0 < oT o' 0%nat) -> s <> specI \/ moving = false ->
  let gone := fun o => leftFlux origin grid dif adv loc_ 0 o s + rightFlux origin grid nX dif (nX - 3) o s in
  (forall o1 o2, In (o1, o2) (combine (o :: r) r) -> m o2 = m o1 + odt o2 * (src o2 - gone o2)) ->
  surface ns origin grid nX dif adv loc_ moving specI procs 0 (o :: r) (repeat st (length procs)) = Some (repeat st1 (length procs)) ->
  bulk ns origin grid nX dif procs 0 (o :: r) (repeat st (length procs)) = Some (repeat st2 (length procs)) ->
  total st s = 0 -> (forall x, In x r -> odt x = dt) ->
  m (last r o) + (total st1 s + total st2 s) - (m o + Rsum r (fun o2 => dt * src o2)) = dt * (gone o - gone (last r o)).
Proof.
  intros. pose proof (c68_balance ns origin grid nX dif adv loc_ procs moving specI o r st st1 st2 m src s) as B.
  cbn zeta in B. rewrite B by auto.
  pose proof (telescope dt gone r o) as T. cbv beta in T. unfold gone in T. rewrite T by auto. unfold gone.
  rewrite (Rsum_ext r (fun o2 => odt o2 * src o2) (fun o2 => dt * src o2)) by (intros x Hx; rewrite (H11 x Hx); ring).
  ring.
Qed.
Example c68_balance_ok : exists (o : out) (r : list out) (m src : out -> R),
  length r = 2%nat /\ (forall o', In o' (o :: r) -> 0 < oT o' 0%nat) /\
  (forall o1 o2, In (o1, o2) (combine (o :: r) r) -> m o2 = m o1 + odt o2 * (src o2 -
     (leftFlux exOrigin INR [0]%nat [] 0 0 o2 0 + rightFlux exOrigin INR 4 [0]%nat 1 o2 0))) /\
  leftFlux exOrigin INR [0]%nat [] 0 0 o 0 < leftFlux exOrigin INR [0]%nat [] 0 0 (last r o) 0.
Proof.
  exists (exOut 0 (fun _ => 0)), [exOut 1 (fun _ => 1); exOut 1 (fun _ => 2)], (fun o => 2 * oC o 0%nat 1%nat),
    (fun o => 2 + 2 * oC o 0%nat 1%nat). split; [reflexivity|]. split; [|split].
  - intros o' [<-|[<-|[<-|[]]]]; cbn [exOut oT]; lra.
  - intros o1 o2 [H|[H|[]]]; injection H as <- <-; unfold leftFlux, rightFlux, amount, exOrigin, exOut;
      cbn [Rsum odt oC oD nth Nat.leb Nat.sub andb INR Nat.add]; lra.
  - unfold leftFlux, amount, exOrigin, exOut. cbn [last Rsum odt oC oD nth Nat.leb andb INR Nat.add]. lra.
Qed.

(** ** Where the output is wrong *)
(** The coefficients are those of the neighbouring point, because the arrays of the network
    start one point to the left (the solver asks at xi + 1 - xs): with a temperature
    gradient the reported flux is another one than that in the equations. *)
Theorem c68_gradient_refuted : exists o p q,
  let grid := fun i => 0 + INR i * 1 in
  (forall l, oC o l 0%nat = 0) /\ (forall l, oC o l 4%nat = 0) /\ owns p 1 = true /\ owns q 3 = true /\
  (forall i, (1 <= i)%nat -> oD o 0%nat i = oD o 0%nat 1%nat) /\
  Rsum (seq 1 3) (fun xi => (grid (S xi) - grid xi) *
    (amount exOrigin 0 0 * diffAt grid 5 (oD o 0%nat) (fun _ => 1) (oC o 0%nat) xi)) <>
  - (surfFlux 2 exOrigin grid 5 [0%nat] [] 0 p o 0 + bulkFlux 2 exOrigin grid 5 [0%nat] q o 0).
Proof.
  exists (Out 0 (fun _ i => if Nat.eqb i 1 then 1 else 0) (fun _ i => if Nat.eqb i 0 then 1 else 2) (fun _ => 1000)), (Proc 0 5), (Proc 0 5).
  cbn zeta. repeat split.
  - intros [|i] H; [lia|]. reflexivity.
  - rewrite c68_surface; [|intros; apply exPure|intros x []| |lia| |reflexivity|cbn [oT]; lra].
    rewrite c68_bulk; [|intros; apply exPure| |lia|reflexivity].
    + unfold leftFlux, rightFlux, amount, exOrigin, diffAt, diff1, around, hxLeft, hxRight.
      cbn [Rsum seq oC oD nth Nat.leb Nat.ltb Nat.eqb Nat.sub andb INR Nat.add hl hr Dl Dm Dr]. lra.
    + intros i. rewrite S_INR. lra.
    + intros i. rewrite S_INR. lra.
    + cbn [INR]. lra.
Qed.
(** When the cells grow, the reported flux has the mean of the spacings on both sides of
    the point; the equations have the spacing towards the surface. *)
Theorem c68_growing_cells_refuted : exists o p q,
  let grid := fun i => INR i * INR i in
  (forall i, grid i < grid (S i)) /\
  (forall l i, oD o l i = 1) /\ (forall l, oC o l 0%nat = 0) /\ (forall l, oC o l 4%nat = 0) /\
  owns p 1 = true /\ owns q 3 = true /\
  (forall c, c 0%nat = 0 -> c 1%nat = 0 -> c 3%nat = 0 -> c 4%nat = 0 ->
     Rsum (seq 1 3) (fun xi => (grid (S xi) - grid xi) * diffAt grid 5 (fun _ => 1) (fun _ => 1) c xi) = 0) /\
  Rsum (seq 1 3) (fun xi => (grid (S xi) - grid xi) *
    (amount exOrigin 0 0 * diffAt grid 5 (oD o 0%nat) (fun _ => 1) (oC o 0%nat) xi)) <>
  - (surfFlux 2 exOrigin grid 5 [0%nat] [] 0 p o 0 + bulkFlux 2 exOrigin grid 5 [0%nat] q o 0).
Proof.
  exists (Out 0 (fun _ i => if Nat.eqb i 1 then 1 else 0) (fun _ _ => 1) (fun _ => 1000)), (Proc 0 5), (Proc 0 5).
  cbn zeta. assert (Hg : forall i, INR i * INR i < INR (S i) * INR (S i)) by (intros i; rewrite S_INR; pose proof (pos_INR i); nra).
  repeat split; auto.
  - intros c A B C E. unfold diffAt, diff1, around, hxLeft, hxRight.
    cbn [Rsum seq Nat.leb Nat.ltb Nat.eqb Nat.sub andb INR Nat.add hl hr Dl Dm Dr]. rewrite A, B, C, E. lra.
  - rewrite c68_surface; [|intros; apply exPure|intros x []|auto|lia| |reflexivity|cbn [oT]; lra].
    rewrite c68_bulk; [|intros; apply exPure|auto|lia|reflexivity].
    + unfold leftFlux, rightFlux, amount, exOrigin, diffAt, diff1, around, hxLeft, hxRight.
      cbn [Rsum seq oC oD nth Nat.leb Nat.ltb Nat.eqb Nat.sub andb INR Nat.add hl hr Dl Dm Dr]. lra.
    + cbn [INR]. lra.
Qed.
Print Assumptions c68_content.
Print Assumptions c68_surface.
Print Assumptions c68_bulk.
Print Assumptions c68_rate.
Print Assumptions c68_accumulated.
Print Assumptions c68_bulk_accumulated.
Print Assumptions c68_balance.
Print Assumptions c68_balance_constant.
Print Assumptions c68_gradient_refuted.
Print Assumptions c68_growing_cells_refuted.
