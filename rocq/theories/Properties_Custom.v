(** C94: the flux read from a file of depth profiles. *)
From Coq Require Import Reals List Lia Lra Ascii String ZArith Bool Arith.
From Verif Require Import Sums ImplantModel TokenModel CustomModel.
Import ListNotations.
Open Scope R_scope.

(** ** What the file says *)
Definition oneLine (l : text) : Prop := ~ In nl l.
(** Two lines which describe a profile. *)
Definition describes (species : text -> option nat) (stoi : text -> option Z) (stod : text -> option R) (find : nat -> Z -> option nat)
    (hp : text * text) (e : entry) : Prop :=
  oneLine (fst hp) /\ oneLine (snd hp) /\
  (exists a b r sp n, tokens (t " ") (fst hp) = [a; b; r] /\ species a = Some sp /\ stoi b = Some n /\ find sp n = Some (eid e) /\ stod r = Some (ered e)) /\
  (exists w vs d, tokens (t " ") (snd hp) = w /\ length w = 17%nat /\ map stod w = map Some (vs ++ [d]) /\ eparams e = vs /\ edepth e = d + 1 / 10).
(** The two lines of every profile, each ended by a new line. *)
Definition written (hps : list (text * text)) : text := flat_map (fun hp => fst hp ++ [nl] ++ snd hp ++ [nl]) hps.

Lemma written_cons h p hps tail : written ((h, p) :: hps) ++ tail = h ++ [nl] ++ p ++ [nl] ++ written hps ++ tail.
Proof. unfold written. cbn [flat_map fst snd]. rewrite <- !app_assoc. reflexivity. Qed.
Lemma cut_line l r : oneLine l -> cut (l ++ [nl] ++ r) = (l, r, true).
Proof.
  induction l as [|ch l IH]; intros H; cbn [app cut].
  - destruct (ascii_dec nl nl); [reflexivity|congruence].
  - destruct (ascii_dec ch nl) as [E|E]; [exfalso; apply H; left; auto|]. cbn [app] in IH. rewrite IH; [reflexivity|]. intros I. apply H. right. auto.
Qed.
Lemma cut_end l : oneLine l -> cut l = (l, [], false).
Proof.
  induction l as [|ch l IH]; intros H; cbn [cut]; [reflexivity|].
  destruct (ascii_dec ch nl) as [E|E]; [exfalso; apply H; left; auto|]. rewrite IH; [reflexivity|]. intros I. apply H. right. auto.
Qed.
Lemma numbers_some stod w vs : map stod w = map Some vs -> numbers stod w = Some vs.
Proof.
  revert vs. induction w as [|x w IH]; intros [|v vs] H; cbn in *; try discriminate; [reflexivity|].
  injection H as Hv H. rewrite Hv, (IH vs) by auto. reflexivity.
Qed.
Section ONE.
Variables (species : text -> option nat) (stoi : text -> option Z) (stod : text -> option R) (find : nat -> Z -> option nat).
Notation des := (describes species stoi stod find).
Lemma params_des w vs d : length w = 17%nat -> map stod w = map Some (vs ++ [d]) -> params stod w = Some (vs, d + 1 / 10).
Proof.
  intros L M. unfold params. rewrite L, Nat.eqb_refl, (numbers_some _ _ _ M).
  assert (LV : length vs = 16%nat) by (apply (f_equal (@length _)) in M; rewrite !map_length, app_length in M; cbn in M; lia).
  rewrite firstn_app, LV, Nat.sub_diag, firstn_O, app_nil_r, firstn_all2 by lia. rewrite app_nth2 by lia. rewrite LV, Nat.sub_diag. cbn [nth].
  do 2 f_equal.
Qed.
(** One iteration over a profile whose second line is still to be read. *)
Lemma loop_one fuel h p e rest acc : des (h, p) e ->
  loop species stoi stod find (S fuel) h (p ++ [nl] ++ rest, true) acc =
  (let (l3, s3) := getl p (rest, true) in loop species stoi stod find fuel l3 s3 (acc ++ [e])).
Proof.
  intros (Hh & Hp & (a & b & r & sp & n & T1 & E1 & E2 & E3 & E4) & (w & vs & d & T2 & L & M & E5 & E6)). cbn [fst snd] in *.
  cbn [loop]. rewrite T1. unfold header. rewrite E1, E2, E3, E4.
  unfold getl at 1. cbn [fst snd]. rewrite (cut_line p rest Hp). cbn [fst snd]. rewrite T2, (params_des _ _ _ L M).
  destruct e as [i re ps dd]. cbn [eid ered eparams edepth] in *. rewrite E5, E6. reflexivity.
Qed.
Lemma loop_written hps es : Forall2 des hps es -> forall tail fuel acc h0 p0 e0, des (h0, p0) e0 -> (S (length hps) <= fuel)%nat ->
  loop species stoi stod find fuel h0 (p0 ++ [nl] ++ written hps ++ tail, true) acc =
  (let (l, s) := getl (snd (last hps (h0, p0))) (tail, true) in loop species stoi stod find (fuel - S (length hps)) l s (acc ++ e0 :: es)).
Proof.
  induction 1 as [|[h p] e hps es D F IH]; intros tail fuel acc h0 p0 e0 D0 HF.
  - destruct fuel as [|fuel]; [cbn in HF; lia|]. rewrite (loop_one fuel h0 p0 e0) by auto. cbn [written flat_map app last snd length]. rewrite Nat.sub_succ, Nat.sub_0_r. reflexivity.
  - destruct fuel as [|fuel]; [cbn in HF; lia|]. rewrite (loop_one fuel h0 p0 e0) by auto.
    rewrite written_cons. unfold getl at 1. cbn [fst snd].
    destruct D as [Hh D']. cbn [fst] in Hh. rewrite (cut_line h) by auto. cbn [length] in HF.
    etransitivity; [apply (IH tail fuel (acc ++ [e0]) h p e); [split; auto|lia]|].
    rewrite <- app_assoc. cbn [app length]. rewrite Nat.sub_succ.
    replace (last ((h, p) :: hps) (h0, p0)) with (last hps (h, p)); [reflexivity|].
    clear. destruct hps as [|x l]; [reflexivity|]. cbn [last]. revert x. induction l as [|y l IH]; intros x; [reflexivity|]. exact (IH y).
Qed.
Lemma written_length hps : (length hps <= length (written hps))%nat.
Proof. induction hps as [|hp hps IH]; [apply le_n|]. cbn [written flat_map]. fold (written hps). repeat (rewrite app_length || cbn [length]). lia. Qed.
(** The file of the profiles followed by a tail, from its first line. *)
Lemma readFile_written hps es tail : Forall2 des hps es -> hps <> [] ->
  readFile species stoi stod find (written hps ++ tail) =
  (let (l, s) := getl (snd (last hps ([], []))) (tail, true) in loop species stoi stod find (S (length (written hps ++ tail)) - length hps) l s es).
Proof.
  intros F N. destruct F as [|[h p] e hps es D F]; [contradiction|]. unfold readFile.
  rewrite written_cons. unfold getl at 1. cbn [fst snd].
  pose proof D as [Hh _]. cbn [fst] in Hh. rewrite (cut_line h) by auto.
  rewrite (loop_written _ _ F tail _ [] h p e D).
  - cbn [app]. replace (last ((h, p) :: hps) ([], [])) with (last hps (h, p)); [reflexivity|].
    clear. destruct hps as [|x l]; [reflexivity|]. cbn [last]. revert x. induction l as [|y l IH]; intros x; [reflexivity|]. exact (IH y).
  - pose proof (written_length hps). repeat (rewrite app_length || cbn [length]). lia.
Qed.

(** A file in which every line is ended is read completely and in order. *)
Theorem c94_reads hps es : Forall2 des hps es -> readFile species stoi stod find (written hps) = Some (Done es).
Proof.
  intros F. destruct hps as [|hp hps]; [inversion F; reflexivity|].
  rewrite <- (app_nil_r (written _)), (readFile_written _ _ [] F) by discriminate. unfold getl. cbn [snd fst cut].
  rewrite Nat.sub_succ_l; [reflexivity|]. rewrite app_length. pose proof (written_length (hp :: hps)). lia.
Qed.
(** Without the last end of line the same file is refused. *)
Theorem c94_last_line_refuted hps es h p e : Forall2 des hps es -> des (h, p) e ->
  readFile species stoi stod find (written hps ++ h ++ [nl] ++ p) = Some Thrown.
Proof.
  intros F D. pose proof D as (Hh & Hp & (a & b & r & sp & n & T1 & E1 & E2 & E3 & E4) & (w & vs & d & T2 & L & M & E5 & E6)). cbn [fst snd] in *.
  assert (HL : forall fuel acc, (2 <= fuel)%nat -> loop species stoi stod find fuel h (p, true) acc = Some Thrown).
  { intros [|[|fuel]] acc HF; [lia|lia|]. cbn [loop]. rewrite T1. unfold header. rewrite E1, E2, E3, E4. unfold getl. cbn [fst snd]. rewrite (cut_end p Hp). cbn [fst snd]. rewrite T2, (params_des _ _ _ L M).
    destruct w as [|w0 [|w1 [|w2 [|w3 w]]]]; try discriminate. reflexivity. }
  destruct hps as [|hp hps].
  - cbn [written flat_map app]. unfold readFile, getl. cbn [fst snd]. change (nl :: p) with ([nl] ++ p). rewrite (cut_line h) by auto.
    apply HL. rewrite !app_length. cbn. lia.
  - rewrite (readFile_written _ _ _ F) by discriminate. unfold getl. cbn [fst snd]. rewrite (cut_line h) by auto.
    apply HL. pose proof (written_length (hp :: hps)). rewrite !app_length. cbn [length] in *. lia.
Qed.
(** A line without a token ends the reading: whatever follows has no effect. *)
Theorem c94_blank_refuted hps es blank rest : Forall2 des hps es -> oneLine blank -> tokens (t " ") blank = [] ->
  readFile species stoi stod find (written hps ++ blank ++ [nl] ++ rest) = Some (Done es).
Proof.
  intros F O B. destruct hps as [|hp hps].
  - inversion F. cbn [written flat_map app]. unfold readFile, getl. cbn [fst snd]. change (nl :: rest) with ([nl] ++ rest). rewrite (cut_line blank) by auto. cbn [loop]. rewrite B. reflexivity.
  - rewrite (readFile_written _ _ _ F) by discriminate. unfold getl. cbn [fst snd]. rewrite (cut_line blank) by auto.
    assert (HL : forall fuel st acc, (1 <= fuel)%nat -> loop species stoi stod find fuel blank st acc = Some (Done acc)) by (intros [|fuel] st acc HF; [lia|cbn [loop]; rewrite B; reflexivity]).
    apply HL. pose proof (written_length (hp :: hps)). rewrite !app_length. cbn [length] in *. lia.
Qed.
(** Reading ends for every file. *)
Lemma cut_shorter s : forall l r b, cut s = (l, r, b) -> (length r + length l <= length s)%nat.
Proof.
  induction s as [|ch s IH]; intros l r b H; cbn [cut] in H; [injection H as <- <- <-; apply le_n|].
  destruct (ascii_dec ch nl); [injection H as <- <- <-; cbn; lia|]. destruct (cut s) as [[l' r'] b'] eqn:E. injection H as <- <- <-. specialize (IH _ _ _ eq_refl). cbn. lia.
Qed.
Lemma loop_total fuel : forall line st acc, (length (fst st) < fuel)%nat -> loop species stoi stod find fuel line st acc <> None.
Proof.
  induction fuel as [|fuel IH]; intros line [s b] acc H; [cbn in H; lia|]. cbn [loop fst] in *.
  destruct (tokens (t " ") line) as [|t0 [|t1 [|t2 [|t3 tl]]]] eqn:ET; try discriminate.
  destruct (header species stoi stod find t0 t1 t2) as [[id red]|]; [|discriminate].
  unfold getl at 1. cbn [fst snd]. destruct b.
  - destruct (cut s) as [[l r] b] eqn:EC. pose proof (cut_shorter _ _ _ _ EC) as HC.
    destruct l as [|ch l]; [discriminate|].
    destruct (params stod (tokens (t " ") (ch :: l))) as [[ps d]|]; [|discriminate].
    unfold getl. cbn [fst snd]. destruct b.
    + destruct (cut r) as [[l' r'] b'] eqn:EC'. pose proof (cut_shorter _ _ _ _ EC') as HC'. apply IH. cbn in *. lia.
    + apply IH. cbn in *. lia.
  - rewrite ET. discriminate.
Qed.
Theorem c94_ends f : exists o, readFile species stoi stod find f = Some o.
Proof.
  unfold readFile, getl. cbn [fst snd]. destruct (cut f) as [[l r] b] eqn:E. pose proof (cut_shorter _ _ _ _ E).
  destruct (loop species stoi stod find (S (length f)) l (r, b) []) eqn:EL; [eauto|]. exfalso. revert EL. apply loop_total. cbn. lia.
Qed.

(** ** The handler *)
Notation init := (initializeFile species stoi stod find).
(** A file which cannot be opened is announced as a flux of zero, but the handler cannot be initialised;
    neither can it without a grid (no dimension), or from a file whose first line is blank. *)
Theorem c94_missing_refuted amp sp g before : init None amp sp g before = Some Undefined.
Proof. reflexivity. Qed.
Theorem c94_zero_dimension_refuted hps es amp sp before : Forall2 des hps es -> init (Some (written hps)) amp sp [] before = Some Undefined.
Proof. intros F. unfold initializeFile. rewrite (c94_reads _ _ F). reflexivity. Qed.
Theorem c94_blank_first_refuted blank rest amp sp g before : oneLine blank -> tokens (t " ") blank = [] ->
  init (Some (blank ++ [nl] ++ rest)) amp sp g before = Some Undefined.
Proof. intros O B. unfold initializeFile. pose proof (c94_blank_refuted [] [] blank rest (Forall2_nil _) O B) as H. cbn [written flat_map app] in H. cbn [app]. rewrite H. destruct g; reflexivity. Qed.
End ONE.

(** ** What is implanted *)
(** The polynomial of the file, by Horner's rule; negative values and depths beyond the fit are cut. *)
Definition horner (l : list R) (x : R) : R := fold_right (fun a acc => a + x * acc) 0 l.
Definition profile (e : entry) (x : R) : R := if Rle_dec x (edepth e) then (if Rle_dec 0 (horner (eparams e) x) then horner (eparams e) x else 0) else 0.
Definition mid (g : list R) (sp i : nat) : R := (nth i g 0 + nth (i + 1) g 0) / 2 - nth (sp + 1) g 0.
Definition thick (g : list R) (i : nat) : R := nth (i + 1) g 0 - nth i g 0.
(** The points which receive atoms: neither the one of the surface nor the last. *)
Definition inner (g : list R) (sp : nat) : list nat := seq (sp + 1) (length g - sp - 4).
Definition whole (e : entry) (g : list R) (sp : nat) : R := Rsum (inner g sp) (fun i => profile e (mid g sp i) * thick g i).

Lemma horner_sum l x n : (length l <= n)%nat -> horner l x = Rsum (seq 0 n) (fun i => nth i l 0 * x ^ i).
Proof.
  revert n. induction l as [|a l IH]; intros n H.
  - symmetry. apply Rsum_zero. intros i _. destruct i; cbn [nth]; ring.
  - destruct n as [|n]; [cbn in H; lia|]. cbn [horner fold_right]. fold (horner l x). rewrite (IH n) by (cbn in H; lia).
    cbn [seq Rsum]. rewrite <- (seq_shift n 0), Rsum_map. rewrite <- Rsum_scal. cbn [nth pow]. rewrite Rmult_1_r. f_equal. apply Rsum_ext. intros i _. cbn [nth pow]. ring.
Qed.
Lemma fit_profile e x : (length (eparams e) <= 16)%nat -> fitOf e x = profile e x.
Proof.
  intros H. unfold fitOf, profile. rewrite <- (horner_sum _ _ 16 H).
  destruct (Rlt_dec (edepth e) x), (Rle_dec x (edepth e)); try lra.
  destruct (Rle_dec 0 (horner (eparams e) x)); [apply Rmax_left; lra|apply Rmax_right; lra].
Qed.
Lemma norm_whole e g sp : (length (eparams e) <= 16)%nat -> norm (fitOf e) g sp = whole e g sp.
Proof.
  intros H. unfold norm, whole, cells, inner. replace (length g - 3 - (sp + 1))%nat with (length g - sp - 4)%nat by lia.
  apply Rsum_ext. intros i _. rewrite fit_profile by auto. reflexivity.
Qed.
Lemma initVec_inner e amp g sp xi : (length (eparams e) <= 16)%nat -> In xi (inner g sp) ->
  nth_error (initVec (fitOf e) amp (ered e) (norm (fitOf e) g sp) g sp) (xi - sp) =
  Some (if Rlt_dec 0 (whole e g sp) then amp * ered e * profile e (mid g sp xi) / whole e g sp else 0).
Proof.
  intros H I. unfold inner in I. apply in_seq in I. unfold initVec.
  destruct (xi - sp)%nat as [|j] eqn:E; [lia|]. cbn [nth_error].
  rewrite nth_error_app1 by (rewrite map_length; unfold cells; rewrite seq_length; lia).
  rewrite nth_error_map. unfold cells. rewrite (nth_error_nth' _ 0%nat) by (rewrite seq_length; lia). rewrite seq_nth by lia.
  cbn [option_map]. replace (sp + 1 + j)%nat with xi by lia. rewrite norm_whole, fit_profile by auto.
  change (depth g sp xi) with (mid g sp xi). unfold normalized. destruct (Rlt_dec 0 (whole e g sp)); f_equal; [field; lra|ring].
Qed.
Lemma added_all (f : entry -> R) (vec : entry -> list R) j d es : (forall e, In e es -> nth_error (vec e) j = Some (f e)) ->
  added es (map vec es) j d = Done (Rsum (filter (fun e => (eid e =? d)%nat) es) f).
Proof.
  induction es as [|e es IH]; intros H; [reflexivity|]. cbn [map added filter]. unfold at_. rewrite (H e) by (left; auto). cbn [bind].
  rewrite IH by (intros; apply H; right; auto). cbn [bind]. destruct (eid e =? d)%nat; reflexivity.
Qed.
Section SOURCE.
Variables (species : text -> option nat) (stoi : text -> option Z) (stod : text -> option R) (find : nat -> Z -> option nat).
Notation des := (describes species stoi stod find).
Notation init := (initializeFile species stoi stod find).
Lemma des_params hps es : Forall2 des hps es -> forall e, In e es -> length (eparams e) = 16%nat.
Proof.
  induction 1 as [|hp e hps es D F IH]; [intros e []|]. intros ee [E0|I]; [subst ee|apply IH; auto]. destruct D as (_ & _ & _ & (w & vs & d & _ & L & M & E & _)). rewrite E.
  apply (f_equal (@length _)) in M. rewrite !map_length, app_length in M. cbn in M. lia.
Qed.
Lemma init_file hps es amp sp g before : Forall2 des hps es -> hps <> [] -> g <> [] ->
  init (Some (written hps)) amp sp g before = Some (Done (State es (map (fun e => initVec (fitOf e) amp (ered e) (norm (fitOf e) g sp) g sp) es) g)).
Proof.
  intros F N G. unfold initializeFile. rewrite (c94_reads _ _ _ _ _ _ F). cbn [bind]. unfold vectors. destruct g as [|g0 g]; [contradiction|].
  destruct F as [|hp e hps es D F]; [contradiction|]. reflexivity.
Qed.
(** At each point between the surface and the bulk an unknown receives the flux of every profile of its cluster. *)
Theorem c94_source hps es amp sp g before : Forall2 des hps es -> hps <> [] -> (sp + 4 <= length g)%nat ->
  exists s, init (Some (written hps)) amp sp g before = Some (Done s) /\
    forall xi d, In xi (inner g sp) -> computeIncidentFlux s sp xi d =
      Done (Rsum (filter (fun e => (eid e =? d)%nat) es) (fun e => if Rlt_dec 0 (whole e g sp) then amp * ered e * profile e (mid g sp xi) / whole e g sp else 0)).
Proof.
  intros F N L. assert (G : g <> []) by (intros ->; cbn in L; lia). eexists. split; [apply (init_file _ _ _ _ _ _ F N G)|].
  intros xi d I. unfold computeIncidentFlux. cbn [sentries svecs]. apply added_all. intros e He. apply initVec_inner; auto. rewrite (des_params _ _ F e He). apply le_n.
Qed.
(** Over the depth, each unknown receives the amplitude times the reduction factors of its profiles. *)
Theorem c94_total hps es amp sp g before d : Forall2 des hps es -> hps <> [] -> (sp + 4 <= length g)%nat ->
  (forall e, In e es -> 0 < whole e g sp) ->
  exists s value, init (Some (written hps)) amp sp g before = Some (Done s) /\
    (forall xi, In xi (inner g sp) -> computeIncidentFlux s sp xi d = Done (value xi)) /\
    Rsum (inner g sp) (fun xi => value xi * thick g xi) = amp * Rsum (filter (fun e => (eid e =? d)%nat) es) ered.
Proof.
  intros F N L P. destruct (c94_source _ _ amp sp g before F N L) as (s & E & V).
  exists s, (fun xi => Rsum (filter (fun e => (eid e =? d)%nat) es) (fun e => if Rlt_dec 0 (whole e g sp) then amp * ered e * profile e (mid g sp xi) / whole e g sp else 0)).
  split; [exact E|]. split; [intros xi I; apply V; auto|].
  rewrite (Rsum_ext _ _ (fun xi => Rsum (filter (fun e => (eid e =? d)%nat) es) (fun e => amp * ered e / whole e g sp * (profile e (mid g sp xi) * thick g xi)))).
  2:{ intros xi _. rewrite <- Rsum_scal_r. apply Rsum_ext. intros e He. apply filter_In in He. specialize (P e (proj1 He)). destruct (Rlt_dec 0 (whole e g sp)); [field; lra|contradiction]. }
  rewrite Rsum_swap, <- Rsum_scal. apply Rsum_ext. intros e He. apply filter_In in He. specialize (P e (proj1 He)). rewrite Rsum_scal. fold (whole e g sp). field. lra.
Qed.
End SOURCE.

(** Two profiles of the same cluster and one of another; numbers are written in unary. *)
Definition unary (s : text) : R := INR (length s).
Definition toySpecies (s : text) : option nat := Some (length s).
Definition toyFind (sp : nat) (n : Z) : option nat := if Z.eqb n 1 then Some sp else None.
Definition toyHps : list (text * text) :=
  [(t "He 1 ..", t "........ . . . . . . . . . . . . . . . ...."); (t "I 1 .", t ". . . . . . . . . . . . . . . .  .."); (t "He 1 .", t " . . . . . . . . . . . . . . . . .")]%string.
Definition toyEs : list entry := [Entry 2 2 (8 :: repeat 1 15) (4 + 1 / 10); Entry 1 1 (repeat 1 16) (2 + 1 / 10); Entry 2 1 (repeat 1 16) (1 + 1 / 10)].
Example c94_ok : let stod s := Some (unary s) in let stoi := extractInt (-9) 9 in
  Forall2 (describes toySpecies stoi stod toyFind) toyHps toyEs /\ toyHps <> [] /\
  (let g := [0; 1; 2; 3; 4; 5; 6] in (0 + 4 <= length g)%nat /\ forall e, In e toyEs -> 0 < whole e g 0).
Proof.
  assert (L : forall l, (forallb (fun ch => negb (Ascii.eqb ch nl)) l = true) -> oneLine l).
  { intros l H I. rewrite forallb_forall in H. specialize (H nl I). cbn in H. discriminate. }
  assert (M : forall n s, length s = n -> unary s = INR n) by (intros n s H; unfold unary; rewrite H; reflexivity).
  cbv zeta. split; [|split].
  - unfold toyHps, toyEs. repeat apply Forall2_cons; [| | |apply Forall2_nil];
      (split; [apply L; reflexivity|]; split; [apply L; reflexivity|]; split;
       [do 5 eexists; repeat split; try reflexivity; cbn [ered]; unfold unary; cbn; f_equal; lra|]).
    + exists (tokens (t " ") (t "........ . . . . . . . . . . . . . . . ....")), (8 :: repeat 1 15), 4. repeat split. cbn. unfold unary. cbn. repeat f_equal; lra.
    + exists (tokens (t " ") (t ". . . . . . . . . . . . . . . .  ..")), (repeat 1 16), 2. repeat split.
    + exists (tokens (t " ") (t " . . . . . . . . . . . . . . . . .")), (repeat 1 16), 1. repeat split.
  - discriminate.
  - split; [cbn; lia|]. intros e He. unfold whole, inner, thick, mid. cbn [length Nat.sub seq Nat.add Rsum nth].
    assert (Q : forall e x, 0 <= profile e x) by (intros e' x; unfold profile; repeat destruct Rle_dec; lra).
    assert (P : 0 < profile e ((1 + 2) / 2 - 1)).
    { destruct He as [<-|[<-|[<-|[]]]]; unfold profile; cbn [edepth eparams]; (destruct Rle_dec; [|exfalso; lra]); cbn [repeat horner fold_right]; (destruct Rle_dec; lra). }
    pose proof (Q e ((2 + 3) / 2 - 1)). pose proof (Q e ((3 + 4) / 2 - 1)). lra.
Qed.
Print Assumptions c94_reads.
Print Assumptions c94_last_line_refuted.
Print Assumptions c94_blank_refuted.
Print Assumptions c94_ends.
Print Assumptions c94_missing_refuted.
Print Assumptions c94_zero_dimension_refuted.
Print Assumptions c94_blank_first_refuted.
Print Assumptions c94_source.
Print Assumptions c94_total.
