(** C86: a parameter file sets the options which it names, and no others. *)
From Verif Require Import TokenModel OptionsModel.
From Verif Require Properties_Token.
From Coq Require Import Reals String Lia.
Open Scope string_scope.

(** ** What is documented *)
(** Label, member, type and value when the label is not in the file: the single values. *)
Definition documented : list (string * string * kind * val) :=
  [("restartFile", "restartFile", KS, VS ""); ("tempHandler", "tempHandlerName", KS, VS "constant"); ("tempFile", "tempProfileFilename", KS, VS "");
   ("tempGridPower", "tempGridPower", KD, VD 2.5); ("flux", "fluxAmplitude", KD, VD 0); ("fluxFile", "fluxTimeProfileFilePath", KS, VS "");
   ("perfHandler", "perfHandlerName", KS, VS "os"); ("perfOutputYAML", "perfOutputYAMLFlag", KB, VB false); ("vizHandler", "vizHandlerName", KS, VS "dummy");
   ("dimensions", "dimensionNumber", KI, VI 1); ("material", "materialName", KS, VS ""); ("initialConc", "initialConcentration", KS, VS "");
   ("zeta", "zeta", KD, VD 0.73); ("interfaceLoc", "interfaceLocation", KD, VD (-1000)); ("gridType", "gridTypeName", KS, VS "uniform");
   ("gridFile", "gridFilename", KS, VS ""); ("grain", "gbList", KS, VS ""); ("useSubnetworks", "subnetworksFlag", KB, VB false); ("sputtering", "sputteringYield", KD, VD 0);
   ("xBCType", "xBC", KS, VS "mirror"); ("heatLossPortion", "heatLossPortion", KD, VD (-1)); ("burstingDepth", "burstingDepth", KD, VD 10);
   ("burstingFactor", "burstingFactor", KD, VD 0.1); ("density", "density", KD, VD 10.162795276841); ("lattice", "latticeParameter", KD, VD (-1));
   ("impurityRadius", "impurityRadius", KD, VD (-1)); ("biasFactor", "biasFactor", KD, VD 1.15); ("hydrogenFactor", "hydrogenFactor", KD, VD 0.25);
   ("xenonDiffusivity", "xenonDiffusivity", KD, VD (-1)); ("fissionYield", "fissionYield", KD, VD 0.25); ("heVRatio", "heVRatio", KD, VD 4);
   ("migrationThreshold", "migrationThreshold", KD, VInf); ("fluxDepthProfileFilePath", "fluxDepthProfileFilePath", KP, VS ""); ("reactionFilePath", "reactionFilePath", KP, VS "");
   ("basalPortion", "basalPortion", KD, VD 0.1); ("transitionSize", "transitionSize", KI, VI 325); ("cascadeDose", "cascadeDose", KD, VD (-1));
   ("cascadeEfficiency", "cascadeEfficiency", KD, VD 0)].
(** Label and member: the lists. *)
Definition documentedLists : list (string * string) :=
  [("tempParam", "tempParam"); ("gridParam", "gridParam"); ("process", "processMap"); ("couplingTimeStepParams", "couplingTimeStepParams"); ("grouping", "grouping");
   ("netParam", "networkParams"); ("radiusSize", "radiusMinSizes"); ("boundary", "boundary"); ("rng", "rng"); ("pulse", "pulse")].
(** Label and member: the flags which remember that a label was there, and their value if it was. *)
Definition documentedFlags : list (string * string * bool) := [("flux", "fluxFlag", true); ("fluxFile", "fluxTimeProfileFlag", true); ("netParam", "useHDF5Flag", false)].
(** All of the labels. *)
Definition labels : list string := ("logLevel" :: "petscArgs" :: map (fun e => fst (fst (fst e))) documented ++ map fst documentedLists)%list.

(** A member after the reading. *)
Definition memberOf (r : outcome opts) (g : string) : option val := match r with Done o => Some (o g) | _ => None end.

(** ** What a file says *)
Definition says (f : tree) (l : string) (n : node) : Prop :=
  exists a l' b, f = (a ++ (l', n) :: b)%list /\ lowercase l' = lowercase l /\ forall p, In p a -> lowercase (fst p) <> lowercase l.
Definition silent (f : tree) (l : string) : Prop := forall p, In p f -> lowercase (fst p) <> lowercase l.
Lemma child_says f l n : child f l = Some n <-> says f l n.
Proof.
  unfold child, says, same. induction f as [|[l0 n0] f IH]; cbn [List.find fst].
  - split; [discriminate|]. intros (a & l' & b & E & _). destruct a; discriminate.
  - destruct (String.eqb_spec (lowercase l0) (lowercase l)) as [E|E].
    + cbn [option_map snd]. split.
      * intros H. injection H as <-. exists [], l0, f. repeat split; [exact E|]. intros p [].
      * intros (a & l' & b & E' & E'' & H). destruct a as [|p a]; [injection E' as -> -> ->; reflexivity|]. injection E' as <- ->. destruct (H (l0, n0) (or_introl eq_refl) E).
    + rewrite IH. split; intros (a & l' & b & E' & E'' & H).
      * exists ((l0, n0) :: a)%list, l', b. subst f. repeat split; [exact E''|]. intros p [<-|Hp]; [exact E|auto].
      * destruct a as [|p a]; [injection E' as -> -> ->; contradiction|]. injection E' as <- ->. exists a, l', b. repeat split; [exact E''|]. intros p Hp. apply H. right. exact Hp.
Qed.
Lemma child_silent f l : child f l = None <-> silent f l.
Proof.
  unfold child, silent, same. induction f as [|[l0 n0] f IH]; cbn [List.find fst]; [split; [intros _ p []|reflexivity]|].
  destruct (String.eqb_spec (lowercase l0) (lowercase l)) as [E|E].
  - split; [discriminate|]. intros H. destruct (H _ (or_introl eq_refl) E).
  - rewrite IH. split; [intros H p [<-|Hp]; [exact E|auto]|intros H p Hp; apply H; right; exact Hp].
Qed.

(** ** Which statement writes a member *)
Definition writes (g : string) (s : stmt) : bool :=
  match s with
  | Check _ _ f | GetOr _ f _ | Strict _ _ f | ListOf _ _ f | TextOf _ f | Petsc _ f => String.eqb g f
  | Given _ fl => existsb (fun e => String.eqb g (fst e)) fl
  | Verify _ _ => false
  end.
Lemma set_other o f v g : String.eqb g f = false -> set o f v g = o g.
Proof. intros H. unfold set. rewrite H. reflexivity. Qed.
Lemma set_same o f v : set o f v f = v.
Proof. unfold set. rewrite String.eqb_refl. reflexivity. Qed.
Section READ.
Variable num : string -> option R.
Variable opens : string -> bool.
Variable nonPositive : text -> bool.
Variable strtoul : text -> option Z.
Notation Step := (step num opens nonPositive strtoul).
Notation Run := (run num opens nonPositive strtoul).
Notation JSON := (readJSON num opens nonPositive strtoul).
Notation Conf := (readConf num opens nonPositive strtoul).
Lemma applied l f ws o o' : applySetter nonPositive strtoul l f ws o = Done o' -> o' = set o f (VL ws).
Proof. unfold applySetter. destruct (setter nonPositive strtoul l ws); cbn [bind]; intros H; try discriminate. injection H as <-. reflexivity. Qed.
Lemma step_other f s o o' g : Step f s o = Done o' -> writes g s = false -> o' g = o g.
Proof.
  intros H W. destruct s as [k l m|l m d|l fl|k l m|l c|k l m|l m|l m]; cbn [writes step] in *.
  - injection H as <-. destruct (child f l) as [n|]; [destruct (convert _ _ _ _)|]; try reflexivity. apply set_other, W.
  - injection H as <-. apply set_other, W.
  - injection H as <-. destruct (child f l) as [n|]; [|reflexivity]. revert o. induction fl as [|e fl IH]; intros o; [reflexivity|]. cbn [fold_left existsb] in *. apply orb_false_iff in W. destruct W as [W1 W2]. rewrite IH by exact W2. apply set_other, W1.
  - destruct (child f l) as [n|]; [destruct (convert _ _ _ _)|]; try discriminate; injection H as <-; try reflexivity. apply set_other, W.
  - destruct (String.eqb l ""); [destruct (checked _ _ _)|destruct (child f l); [destruct (checked _ _ _)|]]; try discriminate; injection H as <-; reflexivity.
  - destruct (child f l) as [[s|[|i it]]|]; [apply applied in H; subst; apply set_other, W|apply applied in H; subst; apply set_other, W| |injection H as <-; reflexivity].
    destruct (ofKind _ _ _); [|discriminate]. apply applied in H. subst. apply set_other, W.
  - destruct (child f l) as [n|]; [apply applied in H; subst; apply set_other, W|injection H as <-; reflexivity].
  - injection H as <-. destruct (child f l); [apply set_other, W|reflexivity].
Qed.
Lemma run_other f p g : filter (writes g) p = [] -> forall o o', Run f p o = Done o' -> o' g = o g.
Proof.
  induction p as [|s p IH]; cbn [filter run]; intros W o o' H; [injection H as <-; reflexivity|]. destruct (writes g s) eqn:E; [discriminate|].
  destruct (Step f s o) as [o1| |] eqn:E1; cbn [bind] in H; try discriminate. rewrite (IH W _ _ H). eapply step_other; eauto.
Qed.
Lemma run_one f p g s : filter (writes g) p = [s] -> forall o o', Run f p o = Done o' -> exists a b, Step f s a = Done b /\ a g = o g /\ o' g = b g.
Proof.
  induction p as [|s0 p IH]; cbn [filter run]; intros W o o' H; [discriminate|].
  destruct (Step f s0 o) as [o1| |] eqn:E1; cbn [bind] in H; try discriminate. destruct (writes g s0) eqn:E.
  - injection W as -> W. exists o, o1. repeat split; [exact E1|]. exact (run_other _ _ _ W _ _ H).
  - destruct (IH W _ _ H) as (a & b & H1 & H2 & H3). exists a, b. repeat split; auto. rewrite H2. eapply step_other; eauto.
Qed.
(** The statement for each documented label. *)
Inductive reads_ : string * string * kind * val -> stmt -> Prop :=
  | RCheck l g k d : start g = d -> reads_ (l, g, k, d) (Check k l g)
  | RGet l g d : reads_ (l, g, KS, VS d) (GetOr l g d)
  | RStrict l g k d : start g = d -> reads_ (l, g, k, d) (Strict k l g).
Lemma json_statement e : In e documented -> exists s, filter (writes (snd (fst (fst e)))) jsonProgram = [s] /\ reads_ e s.
Proof.
  revert e. apply Forall_forall. unfold documented.
  repeat (apply Forall_cons; [eexists; split; [reflexivity|]; first [apply RGet | apply RCheck; reflexivity | apply RStrict; reflexivity]|]). apply Forall_nil.
Qed.

(** JSON: a label which is not in the file leaves the documented value, one which is gives the member its value. *)
Theorem c86_json f o l g k d : JSON f = Done o -> In (l, g, k, d) documented ->
  (silent f l -> o g = d) /\ (forall s v, says f l (Scalar (t s)) -> convert num boolTree k s = Some v -> o g = v).
Proof.
  intros H I. destruct (json_statement _ I) as (s & F & Rd). cbn [fst snd] in F. destruct (run_one _ _ _ _ F _ _ H) as (a & b & S & A & B). rewrite B. clear B F H I.
  split.
  - intros Si. apply child_silent in Si. inversion Rd; subst; cbn [step] in S; rewrite Si in S; injection S as <-; [exact A|apply set_same|exact A].
  - intros s0 v Sa C. apply child_says in Sa.
    assert (D : data (Scalar (t s0)) = s0) by (cbn [data]; apply string_of_list_ascii_of_string).
    inversion Rd; subst; cbn [step] in S; rewrite Sa, D in S.
    + rewrite C in S. injection S as <-. apply set_same.
    + injection S as <-. cbn [convert] in C. injection C as <-. apply set_same.
    + rewrite C in S. injection S as <-. apply set_same.
Qed.
(** A single value which is asked for with checkSetParam and cannot be converted is not an error: the documented value stays. *)
Theorem c86_convert_refuted f o l g k d s : JSON f = Done o -> In (l, g, k, d) documented -> l <> "flux" -> says f l (Scalar (t s)) -> convert num boolTree k s = None -> o g = d.
Proof.
  intros H I NF Sa C. destruct (json_statement _ I) as (st & F & Rd). cbn [fst snd] in F. destruct (run_one _ _ _ _ F _ _ H) as (a & b & S & A & B). rewrite B. apply child_says in Sa.
  assert (D : data (Scalar (t s)) = s) by (cbn [data]; apply string_of_list_ascii_of_string).
  inversion Rd; subst; cbn [step] in S; rewrite Sa, D in S.
  - rewrite C in S. injection S as <-. exact A.
  - discriminate.
  - rewrite C in S. discriminate.
Qed.
(** A list where a single value is expected is not an error either: a text becomes empty, another value stays the documented one. *)
Theorem c86_list_refuted f o l g k d it : num "" = None -> JSON f = Done o -> In (l, g, k, d) documented -> says f l (Items it) ->
  o g = match k with KS => VS "" | _ => d end.
Proof.
  intros N H I Sa. destruct (json_statement _ I) as (st & F & Rd). cbn [fst snd] in F. destruct (run_one _ _ _ _ F _ _ H) as (a & b & S & A & B). rewrite B. apply child_says in Sa.
  inversion Rd; subst; cbn [step] in S; rewrite Sa in S; cbn [data] in S.
  - destruct k; cbn in S; rewrite ?N in S; injection S as <-; first [apply set_same|exact A].
  - injection S as <-. apply set_same.
  - destruct k; cbn in S; rewrite ?N in S; try discriminate. injection S as <-. apply set_same.
Qed.
(** The lists, in JSON: the words of a text or the elements. *)
Inductive lists_ : string * string -> stmt -> Prop :=
  | LList k l g : start g = VL [] -> lists_ (l, g) (ListOf k l g)
  | LText l g : start g = VL [] -> In l ["rng"; "pulse"] -> lists_ (l, g) (TextOf l g).
Lemma json_list e : In e documentedLists -> exists s, filter (writes (snd e)) jsonProgram = [s] /\ lists_ e s.
Proof.
  revert e. apply Forall_forall. unfold documentedLists.
  repeat (apply Forall_cons; [eexists; split; [reflexivity|]; first [apply LList; reflexivity | apply LText; [reflexivity|cbn; tauto]]|]). apply Forall_nil.
Qed.
Theorem c86_json_lists f o l g : JSON f = Done o -> In (l, g) documentedLists ->
  (silent f l -> o g = VL []) /\ (forall s, says f l (Scalar (t s)) -> o g = VL (words s)) /\
  (forall it, says f l (Items (map t it)) -> ~ In l ["rng"; "pulse"] -> o g = VL it).
Proof.
  intros H I. destruct (json_list _ I) as (s & F & Rd). cbn [fst snd] in F. destruct (run_one _ _ _ _ F _ _ H) as (a & b & S & A & B). rewrite B. clear B F H I.
  repeat split.
  - intros Si. apply child_silent in Si. inversion Rd; subst; cbn [step] in S; rewrite Si in S; injection S as <-; congruence.
  - intros s0 Sa. apply child_says in Sa. assert (D : string_of_list_ascii (t s0) = s0) by apply string_of_list_ascii_of_string.
    inversion Rd; subst; cbn [step data] in S; rewrite Sa in S; cbn [data] in S; rewrite D in S; apply applied in S; subst; apply set_same.
  - intros it Sa N. apply child_says in Sa. assert (D : map string_of_list_ascii (map t it) = it) by (rewrite map_map; rewrite <- (map_id it) at 2; apply map_ext; intros x; apply string_of_list_ascii_of_string).
    inversion Rd; subst; [|contradiction]. cbn [step] in S. rewrite Sa in S. destruct it as [|x it]; cbn [map] in S; [apply applied in S; subst; apply set_same|].
    change (string_of_list_ascii (t x) :: map string_of_list_ascii (map t it))%list with (map string_of_list_ascii (map t (x :: it))) in S. rewrite D in S.
    destruct (ofKind num k (x :: it)); [|discriminate]. apply applied in S. subst. apply set_same.
Qed.
(** A list of JSON is read when every one of its items has the type of the list, else the reading fails. *)
Theorem c86_items f l g k it o : says f l (Items (map t it)) -> it <> [] ->
  ((exists w, In w it /\ convert num boolTree k w = None) -> Step f (ListOf k l g) o = Thrown) /\
  ((forall w, In w it -> convert num boolTree k w <> None) -> Step f (ListOf k l g) o = bind (setter nonPositive strtoul l it) (fun _ => Done (set o g (VL it)))).
Proof.
  intros Sa N. apply child_says in Sa.
  assert (D : map string_of_list_ascii (map t it) = it) by (rewrite map_map; rewrite <- (map_id it) at 2; apply map_ext; intros x; apply string_of_list_ascii_of_string).
  assert (S : Step f (ListOf k l g) o = if ofKind num k it then applySetter nonPositive strtoul l g it o else Thrown).
  { cbn [step]. rewrite Sa. destruct it as [|x it]; [contradiction|]. cbn [map].
    change (string_of_list_ascii (t x) :: map string_of_list_ascii (map t it))%list with (map string_of_list_ascii (map t (x :: it))). rewrite D. reflexivity. }
  rewrite S. split.
  - intros (w & I & E). assert (K : ofKind num k it = false); [|rewrite K; reflexivity].
    unfold ofKind. apply Bool.not_true_iff_false. rewrite forallb_forall. intros A. specialize (A w I). cbv beta in A. rewrite E in A. discriminate.
  - intros A. assert (K : ofKind num k it = true); [|rewrite K; reflexivity]. unfold ofKind. apply forallb_forall. intros w I. specialize (A w I). destruct (convert num boolTree k w); [reflexivity|contradiction].
Qed.
(** The flags, in both formats. *)
Lemma json_flag l g b : In (l, g, b) documentedFlags -> filter (writes g) jsonProgram = [Given l [(g, b)]] /\ filter (writes g) confProgram = [Given l [(g, b)]] /\ start g = VB (negb b).
Proof. intros [E|[E|[E|[]]]]; injection E as <- <- <-; repeat split; reflexivity. Qed.
Theorem c86_json_flags f o l g b : JSON f = Done o -> In (l, g, b) documentedFlags -> (silent f l -> o g = VB (negb b)) /\ (forall n, says f l n -> o g = VB b).
Proof.
  intros H I. destruct (json_flag _ _ _ I) as (F & _ & S0). destruct (run_one _ _ _ _ F _ _ H) as (x & y & S & A & B). rewrite B. cbn [step fold_left fst snd] in S. injection S as <-.
  split; [intros Si; apply child_silent in Si; rewrite Si; congruence|]. intros n Sa. apply child_says in Sa. rewrite Sa. apply set_same.
Qed.
(** A label which is not documented does nothing in JSON, and is an error in the older format. *)
Definition labelOf (s : stmt) : string :=
  match s with Check _ l _ | GetOr l _ _ | Given l _ | Strict _ l _ | Verify l _ | ListOf _ l _ | TextOf l _ | Petsc l _ => l end.
Lemma step_ext f f' s o : (exists c, s = Verify "" c) \/ child f (labelOf s) = child f' (labelOf s) -> Step f s o = Step f' s o.
Proof. intros [[c ->]|H]; [reflexivity|]. destruct s; cbn [labelOf step] in *; rewrite H; reflexivity. Qed.
Lemma run_ext f f' p : (forall s, In s p -> (exists c, s = Verify "" c) \/ child f (labelOf s) = child f' (labelOf s)) -> forall o, Run f p o = Run f' p o.
Proof.
  induction p as [|s p IH]; intros H o; [reflexivity|]. cbn [run]. rewrite (step_ext f f') by (apply H; left; reflexivity). destruct (Step f' s o); cbn [bind]; try reflexivity. apply IH. intros s' Hs. apply H. right. exact Hs.
Qed.
Lemma json_labels s : In s jsonProgram -> (exists c, s = Verify "" c) \/ In (labelOf s) labels.
Proof.
  assert (A : forallb (fun s => match s with Verify "" _ => true | _ => existsb (String.eqb (labelOf s)) labels end) jsonProgram = true) by reflexivity.
  rewrite forallb_forall in A. intros I. specialize (A s I).
  assert (X : (exists c, s = Verify "" c) \/ existsb (String.eqb (labelOf s)) labels = true) by (destruct s as [| | | |l c| | |]; try (right; exact A); destruct l; [left; eexists; reflexivity|right; exact A]).
  destruct X as [X|X]; [left; exact X|right]. apply existsb_exists in X. destruct X as (x & Hx & E). apply String.eqb_eq in E. rewrite E. exact Hx.
Qed.
Theorem c86_unknown_refuted f l n : (forall l', In l' labels -> lowercase l <> lowercase l') -> JSON ((l, n) :: f) = JSON f.
Proof.
  intros H. apply run_ext. intros s Hs. destruct (json_labels s Hs) as [E|E]; [left; exact E|right]. unfold child, same. cbn [List.find fst].
  destruct (String.eqb_spec (lowercase l) (lowercase (labelOf s))) as [E'|E']; [destruct (H _ E E')|reflexivity].
Qed.

(** ** The older format *)
Lemma repeated_NoDup l : repeated l = false -> NoDup l.
Proof.
  induction l as [|a l IH]; intros H; [constructor|]. cbn [repeated] in H. apply orb_false_iff in H. destruct H as [H1 H2]. constructor; [|auto].
  intros I. assert (T : existsb (String.eqb a) l = true) by (apply existsb_exists; exists a; split; [exact I|apply String.eqb_refl]). congruence.
Qed.
Lemma NoDup_repeated l : NoDup l -> repeated l = false.
Proof.
  induction 1 as [|a l N _ IH]; [reflexivity|]. cbn [repeated]. rewrite IH, orb_false_r. destruct (existsb (String.eqb a) l) eqn:E; [|reflexivity].
  apply existsb_exists in E. destruct E as (x & I & E). apply String.eqb_eq in E. subst x. contradiction.
Qed.
Lemma conf_parts f o : Conf f = Done o -> NoDup (map fst f) /\ (forall l, In l (map fst f) -> In l labels) /\
  exists o1, notify num f confTable start = Done o1 /\ Run (map (fun p => (fst p, Scalar (t (snd p)))) f) confProgram o1 = Done o.
Proof.
  unfold readConf. destruct (repeated (map fst f)) eqn:E1; [discriminate|]. cbn [orb]. destruct (forallb _ (map fst f)) eqn:E2; [|discriminate]. cbn [negb]. intros H.
  split; [apply repeated_NoDup, E1|]. split.
  - intros l Hl. rewrite forallb_forall in E2. specialize (E2 l Hl). apply existsb_exists in E2. destruct E2 as (e & Ie & Ee). apply String.eqb_eq in Ee. subst l. clear -Ie.
    assert (A : forallb (fun e : string * kind * string * option val => existsb (String.eqb (fst (fst (fst e)))) labels) confTable = true) by reflexivity.
    rewrite forallb_forall in A. specialize (A e Ie). apply existsb_exists in A. destruct A as (x & Hx & E). apply String.eqb_eq in E. rewrite E. exact Hx.
  - destruct (notify num f confTable start) as [o1| |]; try discriminate. exists o1. split; [reflexivity|exact H].
Qed.
(** What the older format accepts: known labels, each once, whose texts can be converted. *)
Theorem c86_conf_accepts f o : Conf f = Done o -> NoDup (map fst f) /\ (forall l, In l (map fst f) -> In l labels).
Proof. intros H. destruct (conf_parts _ _ H) as (A & B & _). split; assumption. Qed.
Lemma lookup_in {A} (f : list (string * A)) l s : NoDup (map fst f) -> In (l, s) f -> lookup f l = Some s.
Proof.
  unfold lookup. induction f as [|[l0 s0] f IH]; intros N I; [destruct I|]. cbn [map fst] in N. inversion N as [|? ? N1 N2]; subst. cbn [List.find fst]. destruct I as [E|I].
  - injection E as -> ->. rewrite String.eqb_refl. reflexivity.
  - destruct (String.eqb_spec l0 l) as [->|E]; [destruct N1; apply in_map_iff; exists (l, s); split; [reflexivity|exact I]|]. apply IH; assumption.
Qed.
Lemma lookup_out {A} (f : list (string * A)) l : ~ In l (map fst f) -> lookup f l = None.
Proof.
  unfold lookup. induction f as [|[l0 s0] f IH]; intros N; [reflexivity|]. cbn [List.find fst map] in *. destruct (String.eqb_spec l0 l) as [->|E]; [destruct N; left; reflexivity|]. apply IH. intros H. apply N. right. exact H.
Qed.
Definition writesE (g : string) (e : string * kind * string * option val) : bool := String.eqb g (snd (fst e)).
Lemma notify_other f g T : g <> "" -> filter (writesE g) T = [] -> forall o o', notify num f T o = Done o' -> o' g = o g.
Proof.
  intros Ng. induction T as [|[[[l k] m] d] T IH]; cbn [filter notify]; intros W o o' H; [injection H as <-; reflexivity|]. destruct (writesE g _) eqn:E; [discriminate|].
  unfold writesE in E. cbn [fst snd] in E. destruct (lookup f l) as [s|].
  - destruct (convert num boolConf k s); [|discriminate]. rewrite (IH W _ _ H). destruct (String.eqb m ""); [reflexivity|apply set_other, E].
  - rewrite (IH W _ _ H). destruct d; [apply set_other, E|reflexivity].
Qed.
Lemma notify_one f g T l k d : g <> "" -> filter (writesE g) T = [(l, k, g, d)] -> forall o o', notify num f T o = Done o' ->
  match lookup f l with Some s => convert num boolConf k s = Some (o' g) | None => o' g = match d with Some v => v | None => o g end end.
Proof.
  intros Ng. induction T as [|[[[l0 k0] m] d0] T IH]; cbn [filter notify]; intros W o o' H; [discriminate|]. destruct (writesE g _) eqn:E.
  - injection W as -> -> -> -> W. destruct (lookup f l) as [s|].
    + destruct (convert num boolConf k s) as [v|]; [|discriminate]. rewrite (notify_other _ _ _ Ng W _ _ H). destruct (String.eqb_spec g ""); [contradiction|]. rewrite set_same. reflexivity.
    + rewrite (notify_other _ _ _ Ng W _ _ H). destruct d; [apply set_same|reflexivity].
  - unfold writesE in E. cbn [fst snd] in E. destruct (lookup f l0) as [s0|].
    + destruct (convert num boolConf k0 s0) as [v|]; [|discriminate]. specialize (IH W _ _ H). destruct (lookup f l); [exact IH|]. rewrite IH. destruct d; [reflexivity|]. destruct (String.eqb m ""); [reflexivity|apply set_other, E].
    + specialize (IH W _ _ H). destruct (lookup f l); [exact IH|]. rewrite IH. destruct d; [reflexivity|]. destruct d0; [apply set_other, E|reflexivity].
Qed.
Lemma conf_entry l g k d : In (l, g, k, d) documented -> exists d', filter (writesE g) confTable = [(l, k, g, d')] /\ match d' with Some v => v | None => start g end = d /\ filter (writes g) confProgram = [] /\ g <> "".
Proof.
  cut (Forall (fun e => exists d', filter (writesE (snd (fst (fst e)))) confTable = [(fst (fst (fst e)), snd (fst e), snd (fst (fst e)), d')] /\ match d' with Some v => v | None => start (snd (fst (fst e))) end = snd e
    /\ filter (writes (snd (fst (fst e)))) confProgram = [] /\ snd (fst (fst e)) <> "") documented).
  - intros H I. rewrite Forall_forall in H. exact (H _ I).
  - unfold documented. repeat (apply Forall_cons; [eexists; split; [reflexivity|]; split; [reflexivity|]; split; [reflexivity|discriminate]|]). apply Forall_nil.
Qed.
Theorem c86_conf f o l g k d : Conf f = Done o -> In (l, g, k, d) documented ->
  (~ In l (map fst f) -> o g = d) /\ (forall s, In (l, s) f -> convert num boolConf k s = Some (o g)).
Proof.
  intros H I. destruct (conf_parts _ _ H) as (N & _ & o1 & H1 & H2). destruct (conf_entry _ _ _ _ I) as (d' & F & D & W & Ng).
  rewrite (run_other _ _ _ W _ _ H2). pose proof (notify_one _ _ _ _ _ _ Ng F _ _ H1) as X. split.
  - intros O. rewrite (lookup_out _ _ O) in X. rewrite X. exact D.
  - intros s Is. rewrite (lookup_in _ _ _ N Is) in X. exact X.
Qed.
(** Labels differ by more than case. *)
Lemma labels_distinct l l' : In l labels -> In l' labels -> lowercase l = lowercase l' -> l = l'.
Proof.
  assert (ND : NoDup (map lowercase labels)) by (apply repeated_NoDup; reflexivity). revert ND. generalize labels. induction l0 as [|a r IH]; intros ND Hl Hl' E; [destruct Hl|].
  cbn [map] in ND. inversion ND as [|? ? N1 N2]; subst. destruct Hl as [->|Hl], Hl' as [->|Hl']; [reflexivity| | |auto].
  - destruct N1. rewrite E. apply in_map, Hl'.
  - destruct N1. rewrite <- E. apply in_map, Hl.
Qed.
Definition asTree (f : list (string * string)) : tree := map (fun p => (fst p, Scalar (t (snd p)))) f.
Lemma child_in f l s : NoDup (map fst f) -> (forall l, In l (map fst f) -> In l labels) -> In l labels -> In (l, s) f -> child (asTree f) l = Some (Scalar (t s)).
Proof.
  unfold child, asTree, same. induction f as [|[l0 s0] f IH]; intros N K L I; [destruct I|]. cbn [map List.find fst snd] in *. inversion N as [|? ? N1 N2]; subst.
  destruct (String.eqb_spec (lowercase l0) (lowercase l)) as [E|E].
  - assert (l0 = l) by (apply labels_distinct; [apply K; left; reflexivity|exact L|exact E]). subst l0. destruct I as [I|I]; [injection I as ->; reflexivity|]. destruct N1. apply in_map_iff. exists (l, s). split; [reflexivity|exact I].
  - destruct I as [I|I]; [injection I as -> ->; contradiction|]. apply IH; [exact N2|intros x Hx; apply K; right; exact Hx|exact L|exact I].
Qed.
Lemma child_out f l : (forall l, In l (map fst f) -> In l labels) -> In l labels -> ~ In l (map fst f) -> child (asTree f) l = None.
Proof.
  unfold child, asTree, same. induction f as [|[l0 s0] f IH]; intros K L O; [reflexivity|]. cbn [map List.find fst snd] in *.
  destruct (String.eqb_spec (lowercase l0) (lowercase l)) as [E|E].
  - destruct O. left. apply labels_distinct; [apply K; left; reflexivity|exact L|exact E].
  - apply IH; [intros x Hx; apply K; right; exact Hx|exact L|intros H; apply O; right; exact H].
Qed.
Lemma in_lists l g : In (l, g) documentedLists -> In l labels.
Proof. intros I. right. right. apply in_or_app. right. apply in_map_iff. exists (l, g). split; [reflexivity|exact I]. Qed.
Lemma in_documented l g k d : In (l, g, k, d) documented -> In l labels.
Proof. intros I. right. right. apply in_or_app. left. apply in_map_iff. exists (l, g, k, d). split; [reflexivity|exact I]. Qed.
Lemma in_flags l g b : In (l, g, b) documentedFlags -> In l labels.
Proof. intros [E|[E|[E|[]]]]; injection E as <- <- <-; cbn; repeat (first [left; reflexivity|right]). Qed.
Lemma conf_list l g : In (l, g) documentedLists -> filter (writes g) confProgram = [TextOf l g] /\ filter (writesE g) confTable = [] /\ start g = VL [] /\ g <> "".
Proof.
  cut (Forall (fun e => filter (writes (snd e)) confProgram = [TextOf (fst e) (snd e)] /\ filter (writesE (snd e)) confTable = [] /\ start (snd e) = VL [] /\ snd e <> "") documentedLists).
  - intros H I. rewrite Forall_forall in H. exact (H _ I).
  - unfold documentedLists. repeat (apply Forall_cons; [repeat split; discriminate|]). apply Forall_nil.
Qed.
Theorem c86_conf_lists f o l g : Conf f = Done o -> In (l, g) documentedLists ->
  (~ In l (map fst f) -> o g = VL []) /\ (forall s, In (l, s) f -> o g = VL (words s)).
Proof.
  intros H I. destruct (conf_parts _ _ H) as (N & K & o1 & H1 & H2). destruct (conf_list _ _ I) as (F & W & S0 & Ng). fold (asTree f) in H2.
  destruct (run_one _ _ _ _ F _ _ H2) as (a & b & S & A & B). rewrite B. cbn [step] in S. split.
  - intros O. rewrite (child_out _ _ K (in_lists _ _ I) O) in S. injection S as <-. rewrite A, (notify_other _ _ _ Ng W _ _ H1). exact S0.
  - intros s Is. rewrite (child_in _ _ _ N K (in_lists _ _ I) Is) in S. cbn [data] in S. unfold t in S. rewrite string_of_list_ascii_of_string in S. apply applied in S. subst b. apply set_same.
Qed.
Theorem c86_conf_flags f o l g b : Conf f = Done o -> In (l, g, b) documentedFlags -> (~ In l (map fst f) -> o g = VB (negb b)) /\ (In l (map fst f) -> o g = VB b).
Proof.
  intros H I. destruct (conf_parts _ _ H) as (N & K & o1 & H1 & H2). destruct (json_flag _ _ _ I) as (_ & F & S0). fold (asTree f) in H2.
  destruct (run_one _ _ _ _ F _ _ H2) as (x & y & S & A & B). rewrite B. cbn [step fold_left fst snd] in S. injection S as <-. split.
  - intros O. rewrite (child_out _ _ K (in_flags _ _ _ I) O). rewrite A.
    assert (E : filter (writesE g) confTable = [] /\ g <> "") by (destruct I as [I|[I|[I|[]]]]; injection I as <- <- <-; split; [reflexivity|discriminate|reflexivity|discriminate|reflexivity|discriminate]).
    rewrite (notify_other _ _ _ (proj2 E) (proj1 E) _ _ H1). exact S0.
  - intros Il. apply in_map_iff in Il. destruct Il as ((l' & s) & E & Is). cbn [fst] in E. subst l'. rewrite (child_in _ _ _ N K (in_flags _ _ _ I) Is). apply set_same.
Qed.

(** ** The two formats agree *)
(** The texts of the two yes-or-no options are such that both formats read them alike. *)
Definition boolsAgree (f : list (string * string)) : Prop := forall l s, In (l, s) f -> In l ["perfOutputYAML"; "useSubnetworks"] -> boolTree s = boolConf s.
Lemma convert_agree f l g k d s : boolsAgree f -> In (l, g, k, d) documented -> In (l, s) f -> convert num boolTree k s = convert num boolConf k s.
Proof.
  intros Bo I Is. destruct k; try reflexivity. cbn [convert]. f_equal. apply (Bo l s Is).
  assert (X : In (l, g, KB, d) (filter (fun e => match snd (fst e) with KB => true | _ => false end) documented)) by (apply filter_In; split; [exact I|reflexivity]).
  cbn in X. destruct X as [X|[X|[]]]; injection X as <- <- <-; cbn; tauto.
Qed.
(** The value of a member when a part of the reading of JSON has been done. *)
Lemma part_agree f o l g k d p s a : Conf f = Done o -> boolsAgree f -> In (l, g, k, d) documented -> filter (writes g) p = [s] -> reads_ (l, g, k, d) s -> Run (asTree f) p start = Done a -> a g = o g.
Proof.
  intros H Bo I F Rd Ha. destruct (c86_conf _ _ _ _ _ _ H I) as (X1 & X2). destruct (c86_conf_accepts _ _ H) as (N & K).
  destruct (run_one _ _ _ _ F _ _ Ha) as (x & y & S & A & B). rewrite B.
  destruct (in_dec string_dec l (map fst f)) as [Il|O].
  - apply in_map_iff in Il. destruct Il as ((l' & s0) & E & Is). cbn [fst] in E. subst l'. pose proof (child_in _ _ _ N K (in_documented _ _ _ _ I) Is) as C. specialize (X2 _ Is).
    rewrite <- (convert_agree _ _ _ _ _ _ Bo I Is) in X2.
    assert (D : data (Scalar (t s0)) = s0) by (cbn [data]; apply string_of_list_ascii_of_string).
    inversion Rd; subst; cbn [step] in S; rewrite C, D in S.
    + rewrite X2 in S. injection S as <-. apply set_same.
    + injection S as <-. cbn [convert] in X2. rewrite set_same. congruence.
    + rewrite X2 in S. injection S as <-. apply set_same.
  - specialize (X1 O). pose proof (child_out _ _ K (in_documented _ _ _ _ I) O) as C. inversion Rd; subst; cbn [step] in S; rewrite C in S; injection S as <-; rewrite ?set_same; congruence.
Qed.
Theorem c86_agree f o o' : Conf f = Done o -> JSON (asTree f) = Done o' -> boolsAgree f ->
  (forall l g k d, In (l, g, k, d) documented -> o g = o' g) /\ (forall l g, In (l, g) documentedLists -> o g = o' g) /\ (forall l g b, In (l, g, b) documentedFlags -> o g = o' g).
Proof.
  intros H H' Bo. destruct (c86_conf_accepts _ _ H) as (N & K). repeat split.
  - intros l g k d I. destruct (json_statement _ I) as (s & F & Rd). symmetry. exact (part_agree _ _ _ _ _ _ _ _ _ H Bo I F Rd H').
  - intros l g I. destruct (c86_conf_lists _ _ _ _ H I) as (X1 & X2). destruct (c86_json_lists _ _ _ _ H' I) as (Y1 & Y2 & _).
    destruct (in_dec string_dec l (map fst f)) as [Il|O].
    + apply in_map_iff in Il. destruct Il as ((l' & s0) & E & Is). cbn [fst] in E. subst l'. rewrite (X2 _ Is). symmetry. apply Y2, child_says, child_in; auto. exact (in_lists _ _ I).
    + rewrite (X1 O). symmetry. apply Y1, child_silent, child_out; auto. exact (in_lists _ _ I).
  - intros l g b I. destruct (c86_conf_flags _ _ _ _ _ H I) as (X1 & X2). destruct (c86_json_flags _ _ _ _ _ H' I) as (Y1 & Y2).
    destruct (in_dec string_dec l (map fst f)) as [Il|O].
    + rewrite (X2 Il). apply in_map_iff in Il. destruct Il as ((l' & s0) & E & Is). cbn [fst] in E. subst l'. symmetry. apply (Y2 (Scalar (t s0))), child_says, child_in; auto. exact (in_flags _ _ _ I).
    + rewrite (X1 O). symmetry. apply Y1, child_silent, child_out; auto. exact (in_flags _ _ _ I).
Qed.
(** What the older format accepts is accepted as JSON. *)
Lemma run_app f p q o : Run f (p ++ q) o = bind (Run f p o) (Run f q).
Proof. revert o. induction p as [|s p IH]; intros o; [reflexivity|]. cbn [List.app run]. destruct (Step f s o); cbn [bind]; auto. Qed.
Lemma run_mem f p o o' s : Run f p o = Done o' -> In s p -> exists a b, Step f s a = Done b.
Proof.
  revert o. induction p as [|s0 p IH]; intros o H I; [destruct I|]. cbn [run] in H. destruct (Step f s0 o) as [o1| |] eqn:E; cbn [bind] in H; try discriminate. destruct I as [->|I]; [eauto|exact (IH _ H I)].
Qed.
Lemma firstn_next {A} (p : list A) n : firstn (S n) p = (firstn n p ++ match nth_error p n with Some s => [s] | None => [] end)%list.
Proof. revert p. induction n as [|n IH]; intros [|x p]; try reflexivity. cbn [nth_error]. change (firstn (S (S n)) (x :: p)) with (x :: firstn (S n) p)%list. rewrite IH. reflexivity. Qed.
Lemma progress_run f p o : (forall i s, nth_error p i = Some s -> forall a, Run f (firstn i p) o = Done a -> exists b, Step f s a = Done b) -> exists b, Run f p o = Done b.
Proof.
  intros H. rewrite <- (firstn_all p). generalize (List.length p). intros n. induction n as [|n (a & Ha)]; [exists o; reflexivity|]. rewrite firstn_next, run_app, Ha. cbn [bind].
  destruct (nth_error p n) as [s|] eqn:E; [|exists a; reflexivity]. destruct (H _ _ E _ Ha) as (b & Hb). exists b. cbn [run]. rewrite Hb. reflexivity.
Qed.
Lemma setter_done f o l g : Conf f = Done o -> In (l, g) documentedLists -> forall s, child (asTree f) l = Some (Scalar (t s)) -> setter nonPositive strtoul l (words s) = Done tt.
Proof.
  intros H I s C. destruct (conf_parts _ _ H) as (N & K & o1 & H1 & H2). fold (asTree f) in H2. destruct (conf_list _ _ I) as (F & _).
  assert (M : In (TextOf l g) confProgram) by (apply (filter_In (writes g)); rewrite F; left; reflexivity).
  destruct (run_mem _ _ _ _ _ H2 M) as (a & b & S). cbn [step] in S. rewrite C in S. cbn [data] in S. unfold t in S. rewrite string_of_list_ascii_of_string in S.
  unfold applySetter in S. destruct (setter nonPositive strtoul l (words s)) as [[]| |]; try discriminate. reflexivity.
Qed.
Lemma asTree_scalar f l n : child (asTree f) l = Some n -> exists s, n = Scalar (t s).
Proof.
  unfold child, asTree. induction f as [|[l0 s0] f IH]; cbn [map List.find fst snd]; [discriminate|]. destruct (same l0 l); [|exact IH]. cbn [option_map snd]. intros H. injection H as <-. eauto.
Qed.
Lemma listof_ok f o l g k : Conf f = Done o -> In (l, g) documentedLists -> forall a, exists b, Step (asTree f) (ListOf k l g) a = Done b.
Proof.
  intros H I a. cbn [step]. destruct (child (asTree f) l) as [n|] eqn:C; [|eauto]. destruct (asTree_scalar _ _ _ C) as (s & ->). pose proof (setter_done _ _ _ _ H I _ C) as S.
  unfold applySetter, t. rewrite string_of_list_ascii_of_string, S. cbn [bind]. eauto.
Qed.
Lemma textof_ok f o l g : Conf f = Done o -> In (l, g) documentedLists -> forall a, exists b, Step (asTree f) (TextOf l g) a = Done b.
Proof.
  intros H I a. cbn [step]. destruct (child (asTree f) l) as [n|] eqn:C; [|eauto]. destruct (asTree_scalar _ _ _ C) as (s & ->). pose proof (setter_done _ _ _ _ H I _ C) as S.
  unfold applySetter. cbn [data]. unfold t. rewrite string_of_list_ascii_of_string, S. cbn [bind]. eauto.
Qed.
Lemma child_member f l n : NoDup (map fst f) -> (forall l, In l (map fst f) -> In l labels) -> In l labels -> child (asTree f) l = Some n -> exists s, n = Scalar (t s) /\ In (l, s) f.
Proof.
  intros N K L C. destruct (in_dec string_dec l (map fst f)) as [Il|O]; [|rewrite (child_out _ _ K L O) in C; discriminate].
  apply in_map_iff in Il. destruct Il as ((l' & s0) & E & Is). cbn [fst] in E. subst l'. rewrite (child_in _ _ _ N K L Is) in C. injection C as <-. eauto.
Qed.
Lemma strict_ok f o l g k d : Conf f = Done o -> boolsAgree f -> In (l, g, k, d) documented -> forall a, exists b, Step (asTree f) (Strict k l g) a = Done b.
Proof.
  intros H Bo I a. cbn [step]. destruct (child (asTree f) l) as [n|] eqn:C; [|eauto]. destruct (c86_conf_accepts _ _ H) as (N & K).
  destruct (child_member _ _ _ N K (in_documented _ _ _ _ I) C) as (s & -> & Is). cbn [data]. unfold t. rewrite string_of_list_ascii_of_string.
  rewrite (convert_agree _ _ _ _ _ _ Bo I Is), (proj2 (c86_conf _ _ _ _ _ _ H I) _ Is). eauto.
Qed.
Definition fieldOf (c : check) : string := match c with CFile f => f | CName f _ => f end.
Lemma checked_ext c a b : a (fieldOf c) = b (fieldOf c) -> checked opens c a = checked opens c b.
Proof. destruct c; cbn [fieldOf checked]; unfold stringAt; intros ->; reflexivity. Qed.
Lemma verify_ok f o l g k d c pre s st cpre cpost a : Conf f = Done o -> boolsAgree f -> In (l, g, k, d) documented -> fieldOf c = g ->
  filter (writes g) pre = [st] -> reads_ (l, g, k, d) st ->
  confProgram = (cpre ++ Verify s c :: cpost)%list -> filter (writes g) (Verify s c :: cpost) = [] -> Run (asTree f) pre start = Done a -> exists b, Step (asTree f) (Verify s c) a = Done b.
Proof.
  intros H Bo I <- F Rd E Fc Ha. pose proof (part_agree _ _ _ _ _ _ _ _ _ H Bo I F Rd Ha) as V.
  destruct (conf_parts _ _ H) as (N & K & o1 & H1 & H2). fold (asTree f) in H2. rewrite E, run_app in H2. destruct (Run (asTree f) cpre o1) as [o2| |]; cbn [bind] in H2; try discriminate.
  pose proof (run_other _ _ _ Fc _ _ H2) as V2. rewrite V2 in V. cbn [run] in H2. apply checked_ext in V. cbn [step] in *. rewrite V.
  destruct (String.eqb s ""); [destruct (checked opens c o2); [eauto|discriminate]|]. destruct (child (asTree f) s); [|eauto]. destruct (checked opens c o2); [eauto|discriminate].
Qed.
Theorem c86_accepted f o : Conf f = Done o -> boolsAgree f -> exists o', JSON (asTree f) = Done o'.
Proof.
  intros H Bo. apply progress_run. intros i s Hi a Ha. fold (asTree f) in *.
  assert (Q : match s with Verify _ _ => True | _ => forall a, exists b, Step (asTree f) s a = Done b end).
  { clear Ha a. apply nth_error_In in Hi. revert s Hi. apply Forall_forall. unfold jsonProgram.
    repeat (apply Forall_cons; [first [exact I | intros a; eexists; reflexivity | apply (listof_ok _ _ _ _ _ H); cbn; tauto | apply (textof_ok _ _ _ _ H); cbn; tauto
      | eapply (strict_ok _ _ _ _ _ _ H Bo); cbn; repeat (first [left; reflexivity|right])]|]). apply Forall_nil. }
  destruct s as [k l g|l g d|l fl|k l g|l c|k l g|l g|l g]; try apply Q. clear Q.
  assert (M : In (i, Verify l c) (filter (fun q => match snd q with Verify _ _ => true | _ => false end) (combine (seq 0 (List.length jsonProgram)) jsonProgram))).
  { apply filter_In. split; [|reflexivity]. pose proof (proj1 (nth_error_Some jsonProgram i)) as L. rewrite Hi in L. specialize (L ltac:(discriminate)).
    pose proof (combine_nth (seq 0 (List.length jsonProgram)) jsonProgram i 0%nat (Verify l c) (seq_length _ _)) as C. rewrite seq_nth in C by exact L. cbn [Nat.add] in C. rewrite (nth_error_nth _ _ _ Hi) in C. rewrite <- C.
    apply nth_In. rewrite combine_length, seq_length, Nat.min_id. exact L. }
  clear Hi. cbv [jsonProgram List.length seq combine filter snd] in M. destruct M as [M|[M|[M|[M|[M|[]]]]]]; injection M as <- <- <-.
  - refine (verify_ok f o "tempFile" _ _ _ _ _ _ _ (firstn 1 confProgram) (skipn 2 confProgram) a H Bo _ eq_refl _ _ eq_refl eq_refl Ha); [cbn; tauto|reflexivity|apply RStrict; reflexivity].
  - refine (verify_ok f o "fluxFile" _ _ _ _ _ _ _ (firstn 3 confProgram) (skipn 4 confProgram) a H Bo _ eq_refl _ _ eq_refl eq_refl Ha); [cbn; tauto|reflexivity|apply RStrict; reflexivity].
  - refine (verify_ok f o "perfHandler" _ _ _ _ _ _ _ (firstn 5 confProgram) (skipn 6 confProgram) a H Bo _ eq_refl _ _ eq_refl eq_refl Ha); [cbn; tauto|reflexivity|apply RGet].
  - refine (verify_ok f o "vizHandler" _ _ _ _ _ _ _ (firstn 6 confProgram) (skipn 7 confProgram) a H Bo _ eq_refl _ _ eq_refl eq_refl Ha); [cbn; tauto|reflexivity|apply RGet].
  - refine (verify_ok f o "gridFile" _ _ _ _ _ _ _ (firstn 8 confProgram) (skipn 9 confProgram) a H Bo _ eq_refl _ _ eq_refl eq_refl Ha); [cbn; tauto|reflexivity|apply RCheck; reflexivity].
Qed.
(** Of a label given twice, JSON takes the first value without a word; the older format throws. *)
Theorem c86_twice_refuted l l' n n' a b : lowercase l = lowercase l' -> JSON ((l, n) :: a ++ (l', n') :: b) = JSON ((l, n) :: a ++ b).
Proof.
  intros E. apply run_ext. intros s _. right. unfold child, same. cbn [List.find fst]. destruct (String.eqb_spec (lowercase l) (lowercase (labelOf s))) as [E1|E1]; [reflexivity|].
  f_equal. induction a as [|[l0 n0] a IH]; cbn [List.app List.find fst].
  - destruct (String.eqb_spec (lowercase l') (lowercase (labelOf s))) as [E2|E2]; [congruence|reflexivity].
  - destruct (String.eqb (lowercase l0) (lowercase (labelOf s))); [reflexivity|exact IH].
Qed.
Theorem c86_conf_throws f : ~ NoDup (map fst f) \/ (exists l, In l (map fst f) /\ ~ In l labels) -> Conf f = Thrown.
Proof.
  unfold readConf. destruct (repeated (map fst f)) eqn:E1; [reflexivity|]. cbn [orb]. intros [N|(l & I & N)]; [destruct N; apply repeated_NoDup, E1|].
  destruct (forallb _ (map fst f)) eqn:E2; [|reflexivity]. rewrite forallb_forall in E2. specialize (E2 l I). apply existsb_exists in E2. destruct E2 as (e & Ie & Ee). apply String.eqb_eq in Ee. destruct N. subst l.
  assert (A : forallb (fun e : string * kind * string * option val => existsb (String.eqb (fst (fst (fst e)))) labels) confTable = true) by reflexivity.
  rewrite forallb_forall in A. specialize (A e Ie). apply existsb_exists in A. destruct A as (x & Hx & E). apply String.eqb_eq in E. rewrite E. exact Hx.
Qed.
(** A list for pulse or rng reads the first word of no words. *)
Theorem c86_pulse_refuted it : JSON [("pulse", Items it)] = Undefined /\ JSON [("rng", Items it)] = Undefined.
Proof. split; reflexivity. Qed.
(** The word yes is true for the older format and nothing at all for JSON. *)
Theorem c86_bool_refuted : memberOf (Conf [("useSubnetworks", "yes")]) "subnetworksFlag" = Some (VB true) /\ memberOf (JSON (asTree [("useSubnetworks", "yes")])) "subnetworksFlag" = Some (VB false).
Proof. split; reflexivity. Qed.
(** What is checked once read. *)
Theorem c86_checks f o : JSON f = Done o -> In (o "perfHandlerName") [VS "dummy"; VS "os"; VS "papi"] /\ In (o "vizHandlerName") [VS "std"; VS "dummy"] /\
  (forall l g, In (l, g) [("tempFile", "tempProfileFilename"); ("fluxFile", "fluxTimeProfileFilePath"); ("gridFile", "gridFilename")] -> forall n, says f l n -> exists s, o g = VS s /\ opens s = true).
Proof.
  intros H.
  assert (V : forall i l c, nth_error jsonProgram i = Some (Verify l c) -> filter (writes (fieldOf c)) (skipn i jsonProgram) = [] -> (l = "" \/ exists n, says f l n) -> checked opens c o = true).
  { intros i l c Hi W Hl. unfold readJSON in H. rewrite <- (firstn_skipn i jsonProgram), run_app in H. destruct (Run f (firstn i jsonProgram) start) as [a| |]; cbn [bind] in H; try discriminate.
    pose proof (run_other _ _ _ W _ _ H) as E. rewrite (checked_ext c _ _ E).
    assert (K : skipn i jsonProgram = Verify l c :: skipn (S i) jsonProgram). { clear -Hi. revert i Hi. generalize jsonProgram. induction l0 as [|x r IH]; intros [|i] Hi; try discriminate; cbn in *; [congruence|auto]. }
    rewrite K in H. cbn [run step] in H. destruct (String.eqb_spec l "") as [->|El]; [destruct (checked opens c a); [reflexivity|discriminate]|].
    destruct Hl as [->|(n & Hn)]; [contradiction|]. apply child_says in Hn. rewrite Hn in H. destruct (checked opens c a); [reflexivity|discriminate]. }
  assert (T : forall l g d, In (l, g, KS, VS d) documented -> exists s, o g = VS s).
  { intros l g d I. destruct (json_statement _ I) as (s & F & Rd). cbn [fst snd] in F. destruct (run_one _ _ _ _ F _ _ H) as (a & b & S & A & B). rewrite B.
    inversion Rd as [? ? ? ? E|? ? ?|? ? ? ? E]; subst; cbn [step convert] in S.
    - injection S as <-. destruct (child f l); [rewrite set_same; eauto|]. rewrite A. eauto.
    - injection S as <-. rewrite set_same. eauto.
    - destruct (child f l); injection S as <-; [rewrite set_same; eauto|]. rewrite A. eauto. }
  assert (C : forall l c, (exists i, nth_error jsonProgram i = Some (Verify l c) /\ filter (writes (fieldOf c)) (skipn i jsonProgram) = []) -> (l = "" \/ exists n, says f l n) -> checked opens c o = true) by (intros l c (i & A & B); eauto).
  split; [|split].
  - assert (X := C "" (CName "perfHandlerName" ["dummy"; "os"; "papi"]) (ex_intro _ 13%nat (conj eq_refl eq_refl)) (or_introl eq_refl)).
    destruct (T "perfHandler" "perfHandlerName" "os") as (s & E); [cbn; tauto|]. cbn [checked] in X. unfold stringAt in X. rewrite E in *. apply existsb_exists in X. destruct X as (x & Hx & Ex). apply String.eqb_eq in Ex. subst x.
    apply (in_map VS) in Hx. exact Hx.
  - assert (X := C "" (CName "vizHandlerName" ["std"; "dummy"]) (ex_intro _ 16%nat (conj eq_refl eq_refl)) (or_introl eq_refl)).
    destruct (T "vizHandler" "vizHandlerName" "dummy") as (s & E); [cbn; tauto|]. cbn [checked] in X. unfold stringAt in X. rewrite E in *. apply existsb_exists in X. destruct X as (x & Hx & Ex). apply String.eqb_eq in Ex. subst x.
    apply (in_map VS) in Hx. exact Hx.
  - intros l g I n Sa.
    assert (Y : exists d, In (l, g, KS, VS d) documented) by (exists ""; destruct I as [I|[I|[I|[]]]]; injection I as <- <-; cbn; tauto). destruct Y as (d & Y). destruct (T _ _ _ Y) as (s & E). exists s. split; [exact E|].
    assert (X : checked opens (CFile g) o = true).
    { apply (C l); [|right; eauto]. destruct I as [I|[I|[I|[]]]]; injection I as <- <-; [exists 5%nat|exists 10%nat|exists 25%nat]; split; reflexivity. }
    cbn [checked] in X. unfold stringAt in X. rewrite E in X. exact X.
Qed.
End READ.
(** Whole numbers: one word of digits, perhaps after a sign, within 32 bits; nothing else is one. *)
Definition digitChar (d : nat) : ascii := ascii_of_nat (48 + d).
Definition digits (ds : list nat) : text := map digitChar ds.
Definition value (ds : list nat) : Z := fold_left (fun v d => 10 * v + Z.of_nat d)%Z ds 0%Z.
Definition writesNumber (w : text) (z : Z) : Prop := exists ds, ds <> [] /\ Forall (fun d => (d < 10)%nat) ds /\
  ((w = digits ds /\ z = value ds) \/ (w = "+"%char :: digits ds /\ z = value ds) \/ (w = "-"%char :: digits ds /\ z = (- value ds)%Z))%list.
Lemma digit_char d : (d < 10)%nat -> digit (digitChar d) = Some (Z.of_nat d).
Proof. intros H. do 10 (destruct d as [|d]; [reflexivity|]). lia. Qed.
Lemma digit_inv c z : digit c = Some z -> exists d, (d < 10)%nat /\ c = digitChar d /\ z = Z.of_nat d.
Proof.
  unfold digit. destruct (Nat.leb_spec 48 (nat_of_ascii c)) as [L|L]; [|discriminate]. destruct (Nat.leb_spec (nat_of_ascii c) 57) as [U|U]; [|discriminate]. cbn [andb]. intros H. injection H as <-.
  exists (nat_of_ascii c - 48)%nat. split; [lia|]. split; [|lia]. unfold digitChar. replace (48 + (nat_of_ascii c - 48))%nat with (nat_of_ascii c) by lia. symmetry. apply ascii_nat_embedding.
Qed.
Lemma read_digits ds : Forall (fun d => (d < 10)%nat) ds -> forall acc, readDigits acc (digits ds) = fold_left (fun v d => 10 * v + Z.of_nat d)%Z ds acc.
Proof. induction 1 as [|d ds Hd _ IH]; intros acc; [reflexivity|]. cbn [digits map readDigits fold_left]. rewrite (digit_char _ Hd). apply IH. Qed.
Lemma unsigned_spec l z : unsignedOf l = Some z <-> exists ds, ds <> [] /\ Forall (fun d => (d < 10)%nat) ds /\ l = digits ds /\ z = value ds.
Proof.
  unfold unsignedOf. split.
  - destruct (allDigits l) eqn:A; [|discriminate]. intros H. injection H as <-. unfold allDigits in A. destruct l as [|c l]; [discriminate|]. revert A. generalize (c :: l)%list (@nil_cons _ c l). clear. intros l N A.
    assert (X : exists ds, Forall (fun d => (d < 10)%nat) ds /\ l = digits ds).
    { clear N. induction l as [|c l IH]; [exists []; split; [constructor|reflexivity]|]. cbn [forallb] in A. apply andb_true_iff in A. destruct A as [A1 A2]. destruct (IH A2) as (ds & F & ->).
      destruct (digit c) as [z|] eqn:E; [|discriminate]. destruct (digit_inv _ _ E) as (d & Hd & -> & _). exists (d :: ds). split; [constructor; assumption|reflexivity]. }
    destruct X as (ds & F & ->). exists ds. split; [intros ->; apply N; reflexivity|]. split; [exact F|]. split; [reflexivity|]. apply (read_digits _ F).
  - intros (ds & N & F & -> & ->). assert (A : allDigits (digits ds) = true).
    { destruct ds as [|d ds]; [contradiction|]. unfold allDigits. cbn [digits map]. change (digitChar d :: map digitChar ds)%list with (digits (d :: ds)). apply forallb_forall. intros c Hc. apply in_map_iff in Hc. destruct Hc as (x & <- & Hx).
      rewrite Forall_forall in F. rewrite (digit_char _ (F _ Hx)). reflexivity. }
    rewrite A, (read_digits _ F). reflexivity.
Qed.
Lemma digit_sign d : (d < 10)%nat -> digitChar d <> "-"%char /\ digitChar d <> "+"%char.
Proof. intros H. do 10 (destruct d as [|d]; [split; discriminate|]). lia. Qed.
Lemma signed_spec w z : signedOf w = Some z <-> writesNumber w z.
Proof.
  unfold writesNumber, signedOf. split.
  - destruct w as [|c r]; [discriminate|]. destruct (Ascii.eqb_spec c "-") as [->|E1].
    + destruct (unsignedOf r) as [x|] eqn:E; [|discriminate]. intros H. injection H as <-. apply unsigned_spec in E. destruct E as (ds & N & F & -> & ->). exists ds. auto 7.
    + destruct (Ascii.eqb_spec c "+") as [->|E2]; intros E; apply unsigned_spec in E; destruct E as (ds & N & F & E & ->); exists ds; subst; auto 7.
  - intros (ds & N & F & [[-> ->]|[[-> ->]|[-> ->]]]).
    + destruct ds as [|d ds]; [contradiction|]. cbn [digits map]. inversion F as [|? ? Hd _]; subst. destruct (digit_sign _ Hd) as (S1 & S2). destruct (Ascii.eqb_spec (digitChar d) "-"); [contradiction|]. destruct (Ascii.eqb_spec (digitChar d) "+"); [contradiction|].
      apply unsigned_spec. exists (d :: ds). auto.
    + cbn. apply unsigned_spec. exists ds. auto.
    + cbn. rewrite (proj2 (unsigned_spec (digits ds) (value ds))); [reflexivity|]. exists ds. auto.
Qed.
Theorem c86_int s z : intOf s = Some z <-> exists w, Properties_Token.Fields (t " ") (t s) [w] /\ writesNumber w z /\ (- 2 ^ 31 <= z < 2 ^ 31)%Z.
Proof.
  unfold intOf, words. split.
  - destruct (tokens (t " ") (t s)) as [|w [|w' l]] eqn:E; cbn [map]; try discriminate. unfold t at 1. rewrite list_ascii_of_string_of_list_ascii.
    destruct (signedOf w) as [x|] eqn:S; [|discriminate]. destruct (Z.leb_spec (-2147483648) x); [|discriminate]. destruct (Z.leb_spec x 2147483647); [|discriminate]. cbn [andb]. intros H1. injection H1 as <-.
    exists w. split; [apply Properties_Token.c43_fields, E|]. split; [apply signed_spec, S|]. change (2 ^ 31)%Z with 2147483648%Z. lia.
  - intros (w & Fi & Wn & Ra). apply Properties_Token.c43_fields in Fi. rewrite Fi. cbn [map]. unfold t at 1. rewrite list_ascii_of_string_of_list_ascii. apply signed_spec in Wn. rewrite Wn. change (2 ^ 31)%Z with 2147483648%Z in Ra.
    destruct (Z.leb_spec (-2147483648) z); [|lia]. destruct (Z.leb_spec z 2147483647); [reflexivity|lia].
Qed.
Example c86_int_ok : intOf " -12 " = Some (-12)%Z /\ intOf "2.0" = None /\ intOf "3000000000" = None /\ intOf "" = None.
Proof. repeat split. Qed.

(** ** A file for which all of this is not empty *)
Definition exNum (s : string) : option R := if String.eqb s "4.0e7" then Some 40000000%R else if String.eqb s "0.5" then Some (1/2)%R else None.
Definition exOpens (s : string) : bool := String.eqb s "grid.dat".
Definition exFile : list (string * string) :=
  [("material", "W100"); ("dimensions", "2"); ("flux", "4.0e7"); ("gridFile", "grid.dat"); ("process", "reaction diff"); ("netParam", "8 0 0 10 6"); ("perfHandler", "dummy"); ("useSubnetworks", "1"); ("zeta", "0.5");
   ("reactionFilePath", "rates.txt")].
Definition exConf := readConf exNum exOpens (fun _ => false) (fun _ => None) exFile.
Definition exJSON (f : tree) := readJSON exNum exOpens (fun _ => false) (fun _ => None) f.
Definition done {A} (o : outcome A) : bool := match o with Done _ => true | _ => false end.
Example c86_accepted_ok : done exConf = true /\ boolsAgree exFile /\ done (exJSON (asTree exFile)) = true.
Proof.
  split; [reflexivity|]. split; [|reflexivity]. intros l s I. repeat (destruct I as [I|I]; [injection I as <- <-; first [intros _; reflexivity | intros [L|[L|[]]]; discriminate]|]). destruct I.
Qed.
Example c86_values_ok : map (memberOf exConf) ["materialName"; "dimensionNumber"; "fluxAmplitude"; "fluxFlag"; "gridFilename"; "processMap"; "networkParams"; "useHDF5Flag"; "perfHandlerName"; "subnetworksFlag"; "zeta"; "reactionFilePath"; "tempHandlerName"; "tempParam"] =
  [Some (VS "W100"); Some (VI 2); Some (VD 40000000); Some (VB true); Some (VS "grid.dat"); Some (VL ["reaction"; "diff"]); Some (VL ["8"; "0"; "0"; "10"; "6"]); Some (VB false); Some (VS "dummy"); Some (VB true); Some (VD (1/2));
   Some (VS "rates.txt"); Some (VS "constant"); Some (VL [])] /\
  map (memberOf (exJSON (asTree exFile))) ["materialName"; "dimensionNumber"; "processMap"; "useHDF5Flag"; "subnetworksFlag"] = [Some (VS "W100"); Some (VI 2); Some (VL ["reaction"; "diff"]); Some (VB false); Some (VB true)].
Proof. split; reflexivity. Qed.
Example c86_convert_ok : map (memberOf (exJSON [("dimensions", Scalar (t "2.0")); ("reactionFilePath", Scalar (t "my rates.txt")); ("Grain", Items [t "Y"; t "8.0"])])) ["dimensionNumber"; "reactionFilePath"; "gbList"] =
  [Some (VI 1); Some (VS ""); Some (VS "")].
Proof. reflexivity. Qed.
Example c86_lists_ok : memberOf (exJSON [("NETPARAM", Items [t "8"; t "0"; t "0"; t "10"; t "6"])]) "networkParams" = Some (VL ["8"; "0"; "0"; "10"; "6"]).
Proof. reflexivity. Qed.
Example c86_items_ok : exJSON [("netParam", Items [t "8"; t "x"])] = Thrown /\ says [("netParam", Items [t "8"; t "x"])] "netParam" (Items (map t ["8"; "x"])%list).
Proof. split; [reflexivity|]. exists [], "netParam", []. repeat split. intros p []. Qed.
Example c86_unknown_ok : (forall l', In l' labels -> lowercase "dimension" <> lowercase l') /\ memberOf (exJSON [("dimension", Scalar (t "3"))]) "dimensionNumber" = Some (VI 1) /\
  readConf exNum exOpens (fun _ => false) (fun _ => None) [("dimension", "3")] = Thrown /\ readConf exNum exOpens (fun _ => false) (fun _ => None) [("material", "Fe"); ("material", "W100")] = Thrown.
Proof.
  split; [|repeat split; reflexivity]. intros l' I E. assert (A : forallb (fun l => negb (String.eqb (lowercase "dimension") (lowercase l))) labels = true) by reflexivity.
  rewrite forallb_forall in A. specialize (A l' I). rewrite E, String.eqb_refl in A. discriminate.
Qed.
Example c86_twice_ok : memberOf (exJSON [("material", Scalar (t "Fe")); ("Material", Scalar (t "W100"))]) "materialName" = Some (VS "Fe").
Proof. reflexivity. Qed.
Example c86_checks_ok : exJSON [("perfHandler", Scalar (t "standard"))] = Thrown /\ exJSON [("gridFile", Scalar (t "missing.dat"))] = Thrown.
Proof. split; reflexivity. Qed.
(** ** Words and letters *)
(** Labels are compared, and the yes/no words of the older format are read, without case: the capital letters and no other characters are changed. *)
Theorem c86_case c : (forall i b, String.get i "ABCDEFGHIJKLMNOPQRSTUVWXYZ" = Some c -> String.get i "abcdefghijklmnopqrstuvwxyz" = Some b -> lower c = b) /\
  ((forall i, String.get i "ABCDEFGHIJKLMNOPQRSTUVWXYZ" <> Some c) -> lower c = c).
Proof.
  split.
  - intros i b H K. do 26 (destruct i as [|i]; [cbn in H, K; injection H as <-; injection K as <-; reflexivity|]). destruct i; discriminate.
  - intros H. specialize (H (Ascii.nat_of_ascii c - 65)%nat). destruct c as [[] [] [] [] [] [] [] []]; try reflexivity; exfalso; apply H; reflexivity.
Qed.
Example c86_case_ok : lowercase "NetParam_Z9[@" = "netparam_z9[@".
Proof. reflexivity. Qed.
(** The yes/no words of JSON, and of the older format. *)
Theorem c86_bool s b : (boolTree s = Some b <-> exists w, words s = [w]%list /\ In w (if b then ["true"; "1"] else ["false"; "0"])%list) /\
  (boolConf s = Some b <-> In (lowercase s) (if b then [""; "on"; "yes"; "1"; "true"] else ["off"; "no"; "0"; "false"])%list).
Proof.
  split.
  - unfold boolTree. split.
    + destruct (words s) as [|w l]; [discriminate|]. destruct l as [|w' l]; [|discriminate]. intros H. exists w. split; [reflexivity|].
      destruct (String.eqb_spec w "true") as [E|_]; [injection H as <-; rewrite E; cbn; auto|]. destruct (String.eqb_spec w "1") as [E|_]; [injection H as <-; rewrite E; cbn; auto|].
      destruct (String.eqb_spec w "false") as [E|_]; [injection H as <-; rewrite E; cbn; auto|]. destruct (String.eqb_spec w "0") as [E|_]; [injection H as <-; rewrite E; cbn; auto|discriminate].
    + intros (w & -> & H). destruct b; cbn [In] in H; destruct H as [<-|[<-|[]]]; reflexivity.
  - unfold boolConf. generalize (lowercase s). intros w. split.
    + cbn [existsb]. repeat (match goal with |- context [String.eqb w ?k] => destruct (String.eqb_spec w k) as [E|_] end; [cbn [orb]; intros [= <-]; rewrite E; cbn; tauto|]). discriminate.
    + intros H. destruct b; cbn [In] in H; intuition (subst; reflexivity).
Qed.
Example c86_bool_ok : boolTree " true" = Some true /\ boolTree "yes" = None /\ boolConf "Yes" = Some true /\ boolConf "OFF" = Some false.
Proof. repeat split. Qed.

Print Assumptions c86_json.
Print Assumptions c86_convert_refuted.
Print Assumptions c86_list_refuted.
Print Assumptions c86_json_lists.
Print Assumptions c86_json_flags.
Print Assumptions c86_unknown_refuted.
Print Assumptions c86_conf_accepts.
Print Assumptions c86_conf.
Print Assumptions c86_conf_lists.
Print Assumptions c86_conf_flags.
Print Assumptions c86_agree.
Print Assumptions c86_accepted.
Print Assumptions c86_twice_refuted.
Print Assumptions c86_conf_throws.
Print Assumptions c86_pulse_refuted.
Print Assumptions c86_bool_refuted.
Print Assumptions c86_checks.
Print Assumptions c86_int.
Print Assumptions c86_case.
Print Assumptions c86_bool.
Print Assumptions c86_items.
