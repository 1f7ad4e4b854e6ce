(** C89: the amounts which have left through the surfaces survive a restart. *)
From Coq Require Import Reals List Bool Lia Lra String.
From Verif Require Import LossModel.
Import ListNotations.
Set Implicit Arguments.
Open Scope R_scope.

(** ** Names *)
Lemma append_length a b : String.length (a ++ b) = (String.length a + String.length b)%nat.
Proof. induction a as [|c a IH]; [reflexivity|]. cbn. rewrite IH. reflexivity. Qed.
Lemma append_tail t : forall a b, (a ++ t)%string = (b ++ t)%string -> a = b.
Proof.
  induction a as [|c a IH]; intros [|d b] H; [reflexivity| | |].
  - exfalso. apply (f_equal String.length) in H. cbn in H. rewrite append_length in H. lia.
  - exfalso. apply (f_equal String.length) in H. cbn in H. rewrite append_length in H. lia.
  - cbn in H. injection H as -> H. f_equal. apply IH. exact H.
Qed.
Lemma append_sides : forall a b, (a ++ "Surf")%string <> (b ++ "Bulk")%string.
Proof.
  induction a as [|c a IH]; intros [|d b] H.
  - discriminate H.
  - apply (f_equal String.length) in H. cbn in H. rewrite append_length in H. cbn in H. lia.
  - apply (f_equal String.length) in H. cbn in H. rewrite append_length in H. cbn in H. lia.
  - cbn in H. injection H as _ H. exact (IH _ H).
Qed.
Lemma nName_inj side a b : nName a side = nName b side -> a = b.
Proof. intros H. unfold nName in H. cbn in H. injection H as H. exact (@append_tail _ _ _ H). Qed.
Lemma fluxName_inj side a b : fluxName a side = fluxName b side -> a = b.
Proof. intros H. unfold fluxName in H. cbn in H. injection H as H. exact (@append_tail _ _ _ H). Qed.
Lemma n_flux a b s s' : nName a s <> fluxName b s'.
Proof. unfold nName, fluxName. cbn. discriminate. Qed.
Lemma n_sides a b : nName a "Surf" <> nName b "Bulk".
Proof. intros H. unfold nName in H. cbn in H. injection H as H. exact (@append_sides _ _ H). Qed.
Lemma flux_sides a b : fluxName a "Surf" <> fluxName b "Bulk".
Proof. intros H. unfold fluxName in H. cbn in H. injection H as H. exact (@append_sides _ _ H). Qed.

(** ** The group *)
Lemma find_app E (g h : group E) k : find (g ++ h) k = match find g k with Some v => Some v | None => find h k end.
Proof. induction g as [|(k', v) g IH]; [reflexivity|]. cbn. destruct (String.eqb k' k); [reflexivity|exact IH]. Qed.
Lemma create_new E (g : group E) k v : find g k = None -> create g k v = Some (g ++ [(k, v)]).
Proof. intros H. unfold create. rewrite H. reflexivity. Qed.
Lemma find_last E (g : group E) k v : find g k = None -> find (g ++ [(k, v)]) k = Some v.
Proof. intros H. rewrite find_app, H. cbn. rewrite String.eqb_refl. reflexivity. Qed.
Lemma find_other E (g : group E) k k' v : k <> k' -> find (g ++ [(k, v)]) k' = find g k'.
Proof. intros H. rewrite find_app. destruct (find g k'); [reflexivity|]. cbn. apply String.eqb_neq in H. rewrite H. reflexivity. Qed.

Section RUN.
Variables D X E : Type.
Variable fmt : format D X E.
Variable x : X.
Variable shaped : D -> Prop.
Hypothesis Round : forall d, shaped d -> exists e, encode fmt x d = Some e /\ decode fmt e = d.
Hypothesis Ext : forall d, shaped d -> extent fmt d = Some x.
Lemma write_spec side n flux : forall names i g, NoDup names -> (forall s, In s names -> find g (nName s side) = None /\ find g (fluxName s side) = None) ->
  List.length n = (i + List.length names)%nat -> List.length flux = (i + List.length names)%nat -> Forall shaped n -> Forall shaped flux ->
  exists g', writeSpecies fmt x n flux side i names g = Some g' /\
    (forall k, ~ (exists s, In s names /\ (k = nName s side \/ k = fluxName s side)) -> find g' k = find g k) /\
    (forall j s, nth_error names j = Some s -> exists d f e e', nth_error n (i + j) = Some d /\ nth_error flux (i + j) = Some f /\
       find g' (nName s side) = Some e /\ decode fmt e = d /\ find g' (fluxName s side) = Some e' /\ decode fmt e' = f).
Proof.
  induction names as [|s names IH]; intros i g ND Fr Ln Lf Sn Sf; cbn [writeSpecies].
  - exists g. split; [reflexivity|]. split; [reflexivity|]. intros [|j] s H; discriminate.
  - cbn [List.length] in Ln, Lf. apply NoDup_cons_iff in ND. destruct ND as (Ns & ND).
    destruct (nth_error n i) as [d|] eqn:Ed; [|apply nth_error_None in Ed; lia]. destruct (nth_error flux i) as [f|] eqn:Ef; [|apply nth_error_None in Ef; lia].
    rewrite Forall_forall in Sn, Sf. destruct (Round (Sn _ (nth_error_In _ _ Ed))) as (e & Ee & De). destruct (Round (Sf _ (nth_error_In _ _ Ef))) as (e' & Ee' & De'). rewrite Ee, Ee'.
    destruct (Fr s (or_introl eq_refl)) as (F1 & F2). rewrite (create_new _ _ _ F1). set (g1 := g ++ [(nName s side, e)]).
    assert (F3 : find g1 (fluxName s side) = None) by (unfold g1; rewrite find_other; [exact F2|apply n_flux]). rewrite (create_new _ _ _ F3). set (g2 := g1 ++ [(fluxName s side, e')]).
    destruct (IH (S i) g2) as (g' & W & K & V); [exact ND| |lia|lia|apply Forall_forall; exact Sn|apply Forall_forall; exact Sf|].
    { intros s' Hs'. assert (s' <> s) by (intros ->; contradiction). destruct (Fr s' (or_intror Hs')) as (F4 & F5). unfold g2, g1. split.
      - rewrite !find_other; [exact F4| |intros Q; symmetry in Q; revert Q; apply n_flux]. intros Q. apply nName_inj in Q. congruence.
      - rewrite !find_other; [exact F5|apply n_flux|]. intros Q. apply fluxName_inj in Q. congruence. }
    exists g'. split; [exact W|]. split.
    + intros k Nk. rewrite K.
      * unfold g2, g1. rewrite !find_other; [reflexivity| |]; intros Q; apply Nk; exists s; split; try (left; reflexivity); auto.
      * intros (s' & I & Q). apply Nk. exists s'. split; [right; exact I|exact Q].
    + intros [|j] s' Hj.
      * cbn in Hj. injection Hj as <-. rewrite Nat.add_0_r. exists d, f, e, e'. split; [exact Ed|]. split; [exact Ef|]. rewrite !K.
        -- unfold g2. rewrite (find_last _ _ _ F3). rewrite find_other; [|intros Q; symmetry in Q; revert Q; apply n_flux]. unfold g1. rewrite (find_last _ _ _ F1). auto.
        -- intros (s' & I & [Q|Q]); [symmetry in Q; exact (@n_flux _ _ _ _ Q)|]. apply fluxName_inj in Q. subst. contradiction.
        -- intros (s' & I & [Q|Q]); [|exact (@n_flux _ _ _ _ Q)]. apply nName_inj in Q. subst. contradiction.
      * cbn in Hj. destruct (V j s' Hj) as (d' & f' & e1 & e2 & Q). exists d', f', e1, e2. replace (i + S j)%nat with (S i + j)%nat by lia. exact Q.
Qed.
Lemma setNth_spec (l N : list D) i d : nth_error N i = Some d -> firstn i l = firstn i N -> List.length l = List.length N ->
  exists l', setNth l i d = Some l' /\ firstn (S i) l' = firstn (S i) N /\ List.length l' = List.length N.
Proof.
  revert l N. induction i as [|i IH]; intros [|a l] [|b N] H F L; try discriminate.
  - cbn in H. injection H as ->. eexists. split; [reflexivity|]. split; [reflexivity|exact L].
  - cbn in F. injection F as -> F. cbn in L. injection L as L. destruct (IH l N H F L) as (l' & S1 & S2 & S3). exists (b :: l'). cbn [setNth]. rewrite S1. split; [reflexivity|].
    split; [cbn [firstn]; f_equal; exact S2|cbn; f_equal; exact S3].
Qed.
Lemma read_spec g side N F : forall names i n flux, List.length N = (i + List.length names)%nat -> List.length F = (i + List.length names)%nat ->
  List.length n = List.length N -> List.length flux = List.length F -> firstn i n = firstn i N -> firstn i flux = firstn i F ->
  (forall j s, nth_error names j = Some s -> exists d f e e', nth_error N (i + j) = Some d /\ nth_error F (i + j) = Some f /\
       find g (nName s side) = Some e /\ decode fmt e = d /\ find g (fluxName s side) = Some e' /\ decode fmt e' = f) ->
  readSpecies fmt g side i names n flux = Some (N, F).
Proof.
  induction names as [|s names IH]; intros i n flux LN LF Ln Lf Fn Ff V; cbn [readSpecies].
  - cbn in LN, LF. rewrite Nat.add_0_r in LN, LF. rewrite <- LN in Fn. rewrite <- LF in Ff. rewrite firstn_all in Fn, Ff. rewrite <- Ln in Fn. rewrite <- Lf in Ff. rewrite firstn_all in Fn, Ff. subst. reflexivity.
  - destruct (V 0%nat s eq_refl) as (d & f & e & e' & E1 & E2 & -> & E4 & -> & E6). rewrite Nat.add_0_r in E1, E2. rewrite E4, E6. cbn in LN, LF.
    destruct (@setNth_spec _ _ _ _ E1 Fn Ln) as (n' & -> & P1 & P2). destruct (@setNth_spec _ _ _ _ E2 Ff Lf) as (f' & -> & Q1 & Q2).
    apply IH; try lia; try assumption. intros j s' H. replace (S i + j)%nat with (i + S j)%nat by lia. apply V. exact H.
Qed.

(** The vectors of a monitor: one entry for each species if the side is a free surface. *)
Definition vectors (b : bool) (count : nat) (l : list D) : Prop := if b then List.length l = count /\ Forall shaped l else l = [].
Definition sound (o : options) (count : nat) (m : monitor D) : Prop :=
  vectors (left o) count (nSurf m) /\ vectors (left o) count (fluxSurf m) /\ vectors (right o) count (nBulk m) /\ vectors (right o) count (fluxBulk m).
Lemma restored o names m : NoDup names -> names <> [] -> (moving o = true -> left o = true) -> sound o (List.length names) m ->
  exists f m', checkpoint fmt o x names m = Some f /\ restart fmt o x names f = Some m' /\
    (left o = true -> moving o = true \/ retention o = true -> nSurf m' = nSurf m /\ fluxSurf m' = fluxSurf m) /\
    (right o = true -> retention o = true -> nBulk m' = nBulk m /\ fluxBulk m' = fluxBulk m) /\
    (bursting o = true -> retention o = true -> bursts m' = bursts m).
Proof.
  intros ND NN ML (S1 & S2 & S3 & S4). destruct o as [le ri mo bu re]. unfold checkpoint, restart, fresh. cbn [left right moving bursting retention] in *.
  assert (HW : exists g1, (if mo || le then writeSpecies fmt x (nSurf m) (fluxSurf m) "Surf" 0 names [] else Some []) = Some g1 /\
     (forall s, In s names -> find g1 (nName s "Bulk") = None /\ find g1 (fluxName s "Bulk") = None) /\
     (le = true -> forall j s, nth_error names j = Some s -> exists d f e e', nth_error (nSurf m) j = Some d /\ nth_error (fluxSurf m) j = Some f /\
       find g1 (nName s "Surf") = Some e /\ decode fmt e = d /\ find g1 (fluxName s "Surf") = Some e' /\ decode fmt e' = f)).
  { destruct le; [rewrite orb_true_r|].
    - cbn in S1, S2. destruct (@write_spec "Surf"%string (nSurf m) (fluxSurf m) names 0%nat []) as (g1 & W & K & V); try tauto. exists g1. split; [exact W|]. split.
      + intros s Hs. rewrite !K; [split; reflexivity| |].
        * intros (s' & I & [Q|Q]); [symmetry in Q; exact (@n_flux _ _ _ _ Q)|symmetry in Q; exact (@flux_sides _ _ Q)].
        * intros (s' & I & [Q|Q]); [symmetry in Q; exact (@n_sides _ _ Q)|exact (@n_flux _ _ _ _ Q)].
      + intros _. exact V.
    - destruct mo; [discriminate (ML eq_refl)|]. exists []. split; [reflexivity|]. split; [split; reflexivity|discriminate]. }
  destruct HW as (g1 & -> & Fr1 & V1).
  assert (HB : exists g2, (if ri then match nBulk m with [] => None | d :: _ => match extent fmt d with Some y => writeSpecies fmt y (nBulk m) (fluxBulk m) "Bulk" 0 names g1 | None => None end end
                           else Some g1) = Some g2 /\
     (le = true -> forall j s, nth_error names j = Some s -> exists d f e e', nth_error (nSurf m) j = Some d /\ nth_error (fluxSurf m) j = Some f /\
       find g2 (nName s "Surf") = Some e /\ decode fmt e = d /\ find g2 (fluxName s "Surf") = Some e' /\ decode fmt e' = f) /\
     (ri = true -> forall j s, nth_error names j = Some s -> exists d f e e', nth_error (nBulk m) j = Some d /\ nth_error (fluxBulk m) j = Some f /\
       find g2 (nName s "Bulk") = Some e /\ decode fmt e = d /\ find g2 (fluxName s "Bulk") = Some e' /\ decode fmt e' = f)).
  { destruct ri; [|exists g1; split; [reflexivity|]; split; [exact V1|discriminate]]. cbn in S3, S4.
    destruct (@write_spec "Bulk"%string (nBulk m) (fluxBulk m) names 0%nat g1) as (g2 & W & K & V); try tauto. exists g2. split; [|split; [|intros _; exact V]].
    - destruct S3 as (L & Sh). destruct (nBulk m) as [|d l] eqn:Eb; [destruct names; [congruence|discriminate L]|]. apply Forall_cons_iff in Sh. rewrite (Ext (proj1 Sh)). exact W.
    - intros Hl j s Hj. destruct (V1 Hl j s Hj) as (d & f & e & e' & Q). exists d, f, e, e'. rewrite !K; [exact Q| |].
      + intros (s' & I & [P|P]); [symmetry in P; exact (@n_flux _ _ _ _ P)|exact (@flux_sides _ _ P)].
      + intros (s' & I & [P|P]); [exact (@n_sides _ _ P)|exact (@n_flux _ _ _ _ P)]. }
  destruct HB as (g2 & -> & V2 & V3). cbn [amounts burst].
  assert (RS : le = true -> forall n flux, List.length n = List.length names -> List.length flux = List.length names -> readSpecies fmt g2 "Surf" 0 names n flux = Some (nSurf m, fluxSurf m)).
  { intros -> n flux L1 L2. cbn in S1, S2. apply read_spec; try reflexivity; try (cbn; intuition congruence). }
  assert (RB : ri = true -> forall n flux, List.length n = List.length names -> List.length flux = List.length names -> readSpecies fmt g2 "Bulk" 0 names n flux = Some (nBulk m, fluxBulk m)).
  { intros -> n flux L1 L2. cbn in S3, S4. apply read_spec; try reflexivity; try (cbn; intuition congruence). }
  exists (File g2 (if bu then Some (bursts m) else None)). cbn [amounts burst]. assert (LL : le = true -> List.length (nSurf m) = List.length names /\ List.length (fluxSurf m) = List.length names) by (intros ->; cbn in S1, S2; tauto).
  destruct mo; [rewrite (ML eq_refl) in *|]; unfold readSurface, readBottom, andThen; cbn [nSurf fluxSurf nBulk fluxBulk bursts].
  - rewrite (RS eq_refl) by apply repeat_length. destruct re; cbn [nSurf fluxSurf nBulk fluxBulk bursts].
    + rewrite (RS eq_refl) by apply LL, eq_refl. cbn [nSurf fluxSurf nBulk fluxBulk bursts]. destruct ri; [rewrite (RB eq_refl) by apply repeat_length|]; destruct bu; cbn [nSurf fluxSurf nBulk fluxBulk bursts];
      (eexists; split; [reflexivity|]; split; [reflexivity|]; cbn [nSurf fluxSurf nBulk fluxBulk bursts]; intuition congruence).
    + eexists; split; [reflexivity|]; split; [reflexivity|]. cbn [nSurf fluxSurf nBulk fluxBulk bursts]. intuition congruence.
  - destruct re; cbn [nSurf fluxSurf nBulk fluxBulk bursts].
    + destruct le; [rewrite (RS eq_refl) by apply repeat_length|]; cbn [nSurf fluxSurf nBulk fluxBulk bursts]; (destruct ri; [rewrite (RB eq_refl) by apply repeat_length|]); destruct bu; cbn [nSurf fluxSurf nBulk fluxBulk bursts];
      (eexists; split; [reflexivity|]; split; [reflexivity|]; cbn [nSurf fluxSurf nBulk fluxBulk bursts]; intuition congruence).
    + eexists; split; [reflexivity|]; split; [reflexivity|]. cbn [nSurf fluxSurf nBulk fluxBulk bursts]. intuition congruence.
Qed.
End RUN.

(** ** The three dimensions *)
Definition shaped1 (_ : R) : Prop := True.
Definition shaped2 (My : nat) (d : list R) : Prop := List.length d = My.
Definition shaped3 (Mz My : nat) (d : list (list R)) : Prop := List.length d = Mz /\ Forall (fun r => List.length r = My) d.

Lemma encode2_whole (d : list R) : encode2 (List.length d) d = Some d.
Proof. unfold encode2. rewrite Nat.leb_refl, firstn_all. reflexivity. Qed.
Lemma rows_concat My : forall d, Forall (fun r : list R => List.length r = My) d -> rows (List.length d) d My = Some (List.concat d).
Proof.
  induction d as [|r d IH]; intros F; [reflexivity|]. apply Forall_cons_iff in F. destruct F as (L & F). cbn [List.length rows List.concat]. rewrite <- L at 1. rewrite encode2_whole, (IH F). reflexivity.
Qed.
Lemma cut_concat My : forall d, Forall (fun r : list R => List.length r = My) d ->
  map (fun i => firstn My (skipn (i * My) (List.concat d))) (seq 0 (List.length d)) = d.
Proof.
  induction d as [|r d IH]; intros F; [reflexivity|]. apply Forall_cons_iff in F. destruct F as (L & F). cbn [List.length seq map List.concat]. f_equal.
  - cbn [Nat.mul skipn]. rewrite firstn_app, <- L, firstn_all, Nat.sub_diag. cbn [firstn]. apply app_nil_r.
  - rewrite <- seq_shift, map_map. transitivity (map (fun i => firstn My (skipn (i * My) (List.concat d))) (seq 0 (List.length d))); [|exact (IH F)].
    apply map_ext. intros i. f_equal. rewrite skipn_app, (skipn_all2 r) by (cbn; lia). cbn [app]. f_equal. cbn. lia.
Qed.
Lemma round3 Mz My d : shaped3 Mz My d -> exists e, encode format3 (Mz, My) d = Some e /\ decode format3 e = d.
Proof.
  intros (L & F). subst. cbn [encode decode format3]. unfold encode3. cbn [fst snd]. rewrite (rows_concat F). eexists. split; [reflexivity|]. unfold decode3. cbn [fst snd]. exact (cut_concat F).
Qed.
Lemma extent3 Mz My d : (0 < Mz)%nat -> shaped3 Mz My d -> extent format3 d = Some (Mz, My).
Proof. intros P (L & F). cbn [extent format3]. destruct d as [|r d]; [cbn in L; lia|]. apply Forall_cons_iff in F. destruct F as (F & _). rewrite L, F. reflexivity. Qed.

(** C89: a checkpoint can be written and be read by a run with the same options, and the run has the amounts again: those of the left side if it has to do with the surface or with the
    retention, those of the right side and those of bursting if it has to do with the retention. One dimension. *)
Theorem c89_restart1 o names (m : monitor R) : NoDup names -> names <> [] -> (moving o = true -> left o = true) -> sound shaped1 o (List.length names) m ->
  exists f m', checkpoint format1 o tt names m = Some f /\ restart format1 o tt names f = Some m' /\
    (left o = true -> moving o = true \/ retention o = true -> nSurf m' = nSurf m /\ fluxSurf m' = fluxSurf m) /\
    (right o = true -> retention o = true -> nBulk m' = nBulk m /\ fluxBulk m' = fluxBulk m) /\
    (bursting o = true -> retention o = true -> bursts m' = bursts m).
Proof. apply restored; intros d _; cbn; [exists d; auto|reflexivity]. Qed.
(** Two dimensions: one amount for each of the My rows. *)
Theorem c89_restart2 o My names (m : monitor (list R)) : NoDup names -> names <> [] -> (moving o = true -> left o = true) -> sound (shaped2 My) o (List.length names) m ->
  exists f m', checkpoint format2 o My names m = Some f /\ restart format2 o My names f = Some m' /\
    (left o = true -> moving o = true \/ retention o = true -> nSurf m' = nSurf m /\ fluxSurf m' = fluxSurf m) /\
    (right o = true -> retention o = true -> nBulk m' = nBulk m /\ fluxBulk m' = fluxBulk m) /\
    (bursting o = true -> retention o = true -> bursts m' = bursts m).
Proof.
  apply restored; unfold shaped2; intros d <-; cbn; [|reflexivity]. exists d. split; [apply encode2_whole|reflexivity].
Qed.
(** Three dimensions: one amount for each of the My x Mz rows. *)
Theorem c89_restart3 o My Mz names (m : monitor (list (list R))) : (0 < Mz)%nat -> NoDup names -> names <> [] -> (moving o = true -> left o = true) -> sound (shaped3 Mz My) o (List.length names) m ->
  exists f m', checkpoint format3 o (Mz, My) names m = Some f /\ restart format3 o (Mz, My) names f = Some m' /\
    (left o = true -> moving o = true \/ retention o = true -> nSurf m' = nSurf m /\ fluxSurf m' = fluxSurf m) /\
    (right o = true -> retention o = true -> nBulk m' = nBulk m /\ fluxBulk m' = fluxBulk m) /\
    (bursting o = true -> retention o = true -> bursts m' = bursts m).
Proof. intros P. apply restored; intros d Hd; [exact (round3 Hd)|exact (extent3 P Hd)]. Qed.

Open Scope string_scope.
Definition exOptions := Options true true true true true.
Definition exMonitor3 : monitor (list (list R)) :=
  Monitor [[[1; 2]; [3; 4]; [5; 6]]; [[7; 8]; [9; 10]; [11; 12]]]%R [[[0; 2]; [0; 4]; [0; 6]]; [[0; 8]; [0; 10]; [0; 12]]]%R
          [[[1; 1]; [3; 3]; [5; 5]]; [[7; 7]; [9; 9]; [2; 2]]]%R [[[1; 0]; [3; 0]; [5; 0]]; [[7; 0]; [9; 0]; [2; 0]]]%R (1, 2, 3)%R.
Example c89_restart_ok : exists f m', checkpoint format3 exOptions (3, 2)%nat ["Helium"; "Vacancy"] exMonitor3 = Some f /\
  restart format3 exOptions (3, 2)%nat ["Helium"; "Vacancy"] f = Some m' /\ m' = exMonitor3.
Proof.
  destruct (@c89_restart3 exOptions 2 3 ["Helium"; "Vacancy"] exMonitor3) as (f & m' & C & Q & S1 & S2 & S3).
  - lia.
  - apply NoDup_cons; [intros [H|[]]; discriminate|]. apply NoDup_cons; [intros []|apply NoDup_nil].
  - discriminate.
  - reflexivity.
  - unfold sound, vectors, shaped3. cbn. repeat (apply conj || apply Forall_cons || apply Forall_nil || reflexivity).
  - exists f, m'. split; [exact C|]. split; [exact Q|]. destruct (S1 eq_refl (or_introl eq_refl)) as (E1 & E2). destruct (S2 eq_refl eq_refl) as (E3 & E4). pose proof (S3 eq_refl eq_refl) as E5.
    destruct m'. cbn in E1, E2, E3, E4, E5. subst. reflexivity.
Qed.

(** C89: in a group which holds the names of the run and nothing else is written twice: the names are apart even if the name of one species is the end of the name of another. *)
Theorem c89_names a b : nName a "Surf" <> nName b "Bulk" /\ fluxName a "Surf" <> fluxName b "Bulk" /\ (forall side side', nName a side <> fluxName b side') /\
  (forall side, nName a side = nName b side -> a = b) /\ (forall side, fluxName a side = fluxName b side -> a = b).
Proof.
  split; [apply n_sides|]. split; [apply flux_sides|]. split; [intros; apply n_flux|]. split; intros side H; [exact (@nName_inj _ _ _ H)|exact (@fluxName_inj _ _ _ H)].
Qed.
Example c89_names_ok : nName "He" "Surf" = "nHeSurf" /\ fluxName "I" "Bulk" = "previousFluxIBulk".
Proof. split; reflexivity. Qed.

(** C89, false of the code: a moving surface at a left side which is not a free surface. The vectors have no entry: the checkpoint reads outside of them. *)
Theorem c89_moving_refuted D X E (fmt : format D X E) o x names f : names <> [] -> moving o = true -> left o = false ->
  checkpoint fmt o x names (fresh fmt o x (List.length names)) = None /\ restart fmt o x names f = None.
Proof.
  intros NN M L. destruct o as [le ri mo bu re]. cbn in M, L. subst. destruct names as [|s names]; [congruence|]. unfold checkpoint, restart, fresh, readSurface, andThen.
  cbn [moving left right bursting retention nSurf fluxSurf nBulk fluxBulk bursts orb readSpecies writeSpecies nth_error setNth]. split; [reflexivity|].
  destruct (find (amounts f) (nName s "Surf")); [|reflexivity]. destruct (find (amounts f) (fluxName s "Surf")); reflexivity.
Qed.
Example c89_moving_refuted_ok : checkpoint format1 (Options false true true false true) tt ["He"] (fresh format1 (Options false true true false true) tt 1) = None.
Proof. apply (@c89_moving_refuted R unit R format1 (Options false true true false true) tt ["He"] (File [] None)); [discriminate|reflexivity|reflexivity]. Qed.

(** C89, false of the code: a restart without the option for the retention and without a moving surface starts with nothing, whatever is in the file: the amounts written at its checkpoints are
    those of this run alone. *)
Theorem c89_off_refuted D X E (fmt : format D X E) le ri bu x names f :
  restart fmt (Options le ri false bu false) x names f =
    Some (Monitor (if le then repeat (zeros fmt x) (List.length names) else []) (if le then repeat (zeros fmt x) (List.length names) else [])
                  (if ri then repeat (zeros fmt x) (List.length names) else []) (if ri then repeat (zeros fmt x) (List.length names) else []) (0, 0, 0)%R).
Proof. reflexivity. Qed.
(** C89, false of the code: with a moving surface and without the option for the retention the left side is read, the right side is not. *)
Theorem c89_half_refuted D X E (fmt : format D X E) ri bu x names f m : restart fmt (Options true ri true bu false) x names f = Some m ->
  nBulk m = (if ri then repeat (zeros fmt x) (List.length names) else []) /\ bursts m = (0, 0, 0)%R.
Proof.
  unfold restart, andThen, readSurface, fresh. cbn [moving left right bursting retention nSurf fluxSurf nBulk fluxBulk bursts].
  destruct (readSpecies fmt (amounts f) "Surf" 0 names _ _) as [(n, fl)|]; [|discriminate]. intros [= <-]. split; reflexivity.
Qed.
Example c89_off_refuted_ok : exists f m', checkpoint format1 (Options true true false true false) tt ["He"] (Monitor [5] [1] [7] [2] (3, 0, 0))%R = Some f /\
  find (amounts f) "nHeSurf" = Some 5%R /\ restart format1 (Options true true false true false) tt ["He"] f = Some m' /\ nSurf m' = [0]%R /\
  exists f', checkpoint format1 (Options true true false true false) tt ["He"] m' = Some f' /\ find (amounts f') "nHeSurf" = Some 0%R.
Proof. eexists. eexists. split; [reflexivity|]. split; [reflexivity|]. split; [reflexivity|]. split; [reflexivity|]. eexists. split; reflexivity. Qed.

(** C89: a run starts with no amount, in vectors of the shape of its surface (so that its first checkpoint can be read again). *)
Lemma repeat_shaped A (Q : A -> Prop) (a : A) n : Q a -> Forall Q (repeat a n).
Proof. intros H. induction n; cbn; constructor; assumption. Qed.
Lemma fresh_sound D X E (fmt : format D X E) (Q : D -> Prop) o x n : Q (zeros fmt x) -> sound Q o n (fresh fmt o x n).
Proof.
  intros H. assert (V : forall b : bool, vectors Q b n (if b then repeat (zeros fmt x) n else [])).
  { intros [|]; cbn; [split; [apply repeat_length|apply repeat_shaped; exact H]|reflexivity]. }
  unfold sound, fresh. cbn [nSurf fluxSurf nBulk fluxBulk]. repeat split; apply V.
Qed.
Theorem c89_start o n My Mz :
  sound (fun d : R => d = 0%R) o n (fresh format1 o tt n) /\
  sound (fun d : list R => shaped2 My d /\ Forall (fun a => a = 0%R) d) o n (fresh format2 o My n) /\
  sound (fun d : list (list R) => shaped3 Mz My d /\ Forall (Forall (fun a => a = 0%R)) d) o n (fresh format3 o (Mz, My) n) /\
  bursts (fresh format1 o tt n) = (0, 0, 0)%R /\ bursts (fresh format2 o My n) = (0, 0, 0)%R /\ bursts (fresh format3 o (Mz, My) n) = (0, 0, 0)%R.
Proof.
  split; [apply fresh_sound; reflexivity|]. split; [apply fresh_sound; split; [apply repeat_length|apply repeat_shaped; reflexivity]|].
  split; [|repeat split]. apply fresh_sound. split; [split; [apply repeat_length|apply repeat_shaped, repeat_length]|]. apply repeat_shaped, repeat_shaped. reflexivity.
Qed.
Example c89_start_ok : nSurf (fresh format3 exOptions (1, 2)%nat 2) = [[[0; 0]]; [[0; 0]]]%R /\ List.length (nBulk (fresh format2 exOptions 3%nat 2)) = 2%nat.
Proof. split; reflexivity. Qed.

Print Assumptions c89_restart1.
Print Assumptions c89_restart2.
Print Assumptions c89_restart3.
Print Assumptions c89_names.
Print Assumptions c89_moving_refuted.
Print Assumptions c89_off_refuted.
Print Assumptions c89_half_refuted.
Print Assumptions c89_start.
