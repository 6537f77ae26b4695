(** * Facts about the command line *)

From Coq Require Import Ascii String Permutation.
From Verif Require Import Spec Outcome State ModelBuild TextSpec ModelText ModelRead Text CliSpec ModelCli Runs Read.
#[local] Open Scope Z_scope.

Lemma text_eqb_spec a b : reflect (a = b) (text_eqb a b).
Proof.
  revert b. induction a as [|x a IH]; intros [|y b]; simpl; try (constructor; congruence).
  destruct (Ascii.eqb_spec x y) as [->|N]; simpl; [|constructor; congruence].
  destruct (IH b) as [->|N]; constructor; congruence.
Qed.

Lemma lookup_none w tb : ~ In w (map fst tb) -> lookup w tb = None.
Proof.
  induction tb as [|(k, e) tb IH]; intro H; auto. cbn [lookup]. destruct (text_eqb_spec w k) as [->|N].
  - exfalso. apply H. left; auto.
  - apply IH. intro; apply H; right; auto.
Qed.

Lemma an_int_in z : an_int z -> in_int z = true.
Proof. unfold an_int, in_int. lia. Qed.

(** The effect of an option of -solvenc. *)
Definition nc_apply (c : cline) (o : opt) : cline :=
  match o with
  | OFile f => with_file (Some f) c
  | OTime n => with_time n c
  | ORestart n => with_restarts n c
  | OWl => with_wl c
  | OVsids => with_heur VSIDS c
  | OVsidsPos => with_heur VSIDS_pos c
  | OLazy => with_heur Lazy c
  | OVerbose => with_log c
  | OModel => with_model c
  | OVar n => with_var n c
  | OClause n => with_clause n c
  | OClauseSize n => with_clause_size n c
  | OModelFile _ | OWord _ => c
  end.

Definition ch_apply (c : cline) (o : opt) : cline :=
  match o with
  | OModelFile f => with_model_file (Some f) c
  | OFile _ | OTime _ | OLazy | OVerbose | OVar _ | OClause _ | OClauseSize _ => nc_apply c o
  | _ => c
  end.

Lemma nc_step o rest c : nc_option o ->
  parse_loop tb_solvenc (opt_text o ++ rest) c = parse_loop tb_solvenc rest (nc_apply c o).
Proof.
  intro H. destruct o; cbn [opt_text app nc_option] in *; try reflexivity; try (destruct H; fail).
  all: try (cbn; rewrite atoi_num by (apply an_int_in; exact H); reflexivity).
  cbn [parse_loop]. rewrite lookup_none; auto.
Qed.

Lemma ch_step o rest c : ch_option o ->
  parse_loop tb_solvech (opt_text o ++ rest) c = parse_loop tb_solvech rest (ch_apply c o).
Proof.
  intro H. destruct o; cbn [opt_text app ch_option] in *; try reflexivity; try (destruct H; fail).
  all: try (cbn; rewrite atoi_num by (apply an_int_in; exact H); reflexivity).
  cbn [parse_loop]. rewrite lookup_none; auto.
Qed.

Lemma nc_parse : forall os c, Forall nc_option os -> parse_loop tb_solvenc (args_of os) c = Ok (fold_left nc_apply os c).
Proof.
  induction os as [|o os IH]; intros c H; [reflexivity|]. inversion H; subst. unfold args_of. simpl map. cbn [List.concat].
  rewrite nc_step by auto. apply IH. auto.
Qed.

Lemma ch_parse : forall os c, Forall ch_option os -> parse_loop tb_solvech (args_of os) c = Ok (fold_left ch_apply os c).
Proof.
  induction os as [|o os IH]; intros c H; [reflexivity|]. inversion H; subst. unfold args_of. simpl map. cbn [List.concat].
  rewrite ch_step by auto. apply IH. auto.
Qed.

Lemma nc_dispatch os : Forall nc_option os ->
  dispatch (txt "-solvenc" :: args_of os) = Ok (SolveFinite (fold_left nc_apply os default_cline) NonChrono).
Proof. intro H. unfold dispatch. cbn [text_eqb txt list_ascii_of_string Ascii.eqb Bool.eqb andb]. rewrite nc_parse by auto. reflexivity. Qed.

Lemma ch_dispatch os : Forall ch_option os ->
  dispatch (txt "-solvech" :: args_of os) = Ok (SolveFinite (fold_left ch_apply os default_cline) Chrono).
Proof. intro H. unfold dispatch. cbn [text_eqb txt list_ascii_of_string Ascii.eqb Bool.eqb andb]. rewrite ch_parse by auto. reflexivity. Qed.

(** The heuristic. *)
Definition sel_heur (o : opt) : option heuristic :=
  match o with OVsids => Some VSIDS | OVsidsPos => Some VSIDS_pos | OLazy => Some Lazy | _ => None end.

Definition upgrade (w : bool) (h : heuristic) : heuristic := if w then match h with BK => VSIDS | _ => h end else h.

Lemma latest_wl : forall os, latest sel_wl os true = true.
Proof. induction os as [|x os IH]; auto. simpl. destruct x; exact IH. Qed.

Lemma nc_fields : forall os c, let r := fold_left nc_apply os c in
  c_file r = latest sel_file os (c_file c) /\ c_time r = latest sel_time os (c_time c) /\
  c_restarts r = latest sel_restart os (c_restarts c) /\ c_watch r = latest sel_wl os (c_watch c) /\
  c_clause_size r = latest sel_size os (c_clause_size c) /\ c_log r = latest sel_verbose os (c_log c) /\
  c_heur r = latest sel_heur os (upgrade (latest sel_wl os false) (c_heur c)).
Proof.
  induction os as [|o os IH]; intros c r.
  - unfold r. simpl. repeat split.
  - unfold r. cbn [fold_left latest]. destruct (IH (nc_apply c o)) as (E1 & E2 & E3 & E4 & E5 & E6 & E7).
    rewrite E1, E2, E3, E4, E5, E6, E7.
    destruct o; cbn; repeat split; auto; f_equal; try (destruct (latest sel_wl os false), (c_heur c); reflexivity).
    + rewrite latest_wl. destruct (latest sel_wl os false), (c_heur c); reflexivity.
Qed.

Lemma ch_fields : forall os c, Forall ch_option os -> let r := fold_left ch_apply os c in
  c_file r = latest sel_file os (c_file c) /\ c_time r = latest sel_time os (c_time c) /\
  c_clause_size r = latest sel_size os (c_clause_size c) /\ c_log r = latest sel_verbose os (c_log c) /\
  c_watch r = c_watch c /\ c_restarts r = c_restarts c /\
  c_heur r = latest sel_heur os (c_heur c).
Proof.
  induction os as [|o os IH]; intros c H r.
  - unfold r. simpl. repeat split.
  - inversion H as [|? ? Ho Hos]; subst. unfold r. cbn [fold_left latest].
    destruct (IH (ch_apply c o) Hos) as (E1 & E2 & E3 & E4 & E5 & E6 & E7).
    rewrite E1, E2, E3, E4, E5, E6, E7. destruct o; cbn; repeat split; auto; destruct Ho.
Qed.

Lemma heur_nc os : exists h, latest sel_heur os (upgrade (latest sel_wl os false) BK) = h /\ (latest sel_wl os false = true -> h <> BK).
Proof.
  eexists. split; [reflexivity|]. intro W. rewrite W. cbn [upgrade].
  assert (G : forall os h, h <> BK -> latest sel_heur os h <> BK).
  { clear. induction os as [|o os IH]; intros h H; auto. simpl. apply IH. destruct o; cbn; auto; discriminate. }
  apply G. discriminate.
Qed.

(** Every way through the loop of -solvenc keeps the invariant. *)
Lemma parse_nc_inv : forall n args c c', (length args <= n)%nat -> (c_watch c = true -> c_heur c <> BK) ->
  parse_loop tb_solvenc args c = Ok c' -> c_watch c' = true -> c_heur c' <> BK.
Proof.
  induction n as [|n IH]; intros args c c' L I E.
  - destruct args; [|simpl in L; lia]. injection E as <-. auto.
  - destruct args as [|a rest]; [injection E as <-; auto|]. simpl in L. cbn [parse_loop] in E.
    assert (K : match lookup a tb_solvenc with
                | Some (EFlag f) => forall c, (c_watch c = true -> c_heur c <> BK) -> c_watch (f c) = true -> c_heur (f c) <> BK
                | Some (EInt f) => forall n c, (c_watch c = true -> c_heur c <> BK) -> c_watch (f n c) = true -> c_heur (f n c) <> BK
                | Some (EStr f) => forall n c, (c_watch c = true -> c_heur c <> BK) -> c_watch (f n c) = true -> c_heur (f n c) <> BK
                | None => True end).
    { unfold tb_solvenc. cbn [lookup]. repeat (destruct (text_eqb a _); [cbn; intros; auto; try discriminate|]); auto.
      destruct (c_heur c0); discriminate. }
    destruct (lookup a tb_solvenc) as [[f|f|f]|].
    + destruct rest as [|x rest']; [discriminate|]. destruct (atoi x) as [z| |]; try discriminate. cbn [bind] in E.
      eapply IH; [|apply (K z c I)|exact E]. simpl in L. lia.
    + destruct rest as [|x rest']; [injection E as <-; apply (K None c I)|].
      eapply IH; [|apply (K (Some x) c I)|exact E]. simpl in L. lia.
    + eapply IH; [|apply (K c I)|exact E]. lia.
    + eapply IH; [|exact I|exact E]. lia.
Qed.

Lemma parse_ch_inv : forall n args c c', (length args <= n)%nat -> c_watch c = false -> (c_heur c = BK \/ c_heur c = Lazy) ->
  parse_loop tb_solvech args c = Ok c' -> c_watch c' = false /\ (c_heur c' = BK \/ c_heur c' = Lazy).
Proof.
  induction n as [|n IH]; intros args c c' L I1 I2 E.
  - destruct args; [|simpl in L; lia]. injection E as <-. auto.
  - destruct args as [|a rest]; [injection E as <-; auto|]. simpl in L. cbn [parse_loop] in E.
    pose (P := fun c => c_watch c = false /\ (c_heur c = BK \/ c_heur c = Lazy)).
    assert (K : match lookup a tb_solvech with
                | Some (EFlag f) => forall c, P c -> P (f c)
                | Some (EInt f) => forall n c, P c -> P (f n c)
                | Some (EStr f) => forall n c, P c -> P (f n c)
                | None => True end).
    { unfold tb_solvech. cbn [lookup]. repeat (destruct (text_eqb a _); [unfold P; cbn; intros; tauto|]); auto. }
    assert (I : P c) by (split; auto).
    destruct (lookup a tb_solvech) as [[f|f|f]|].
    + destruct rest as [|x rest']; [discriminate|]. destruct (atoi x) as [z| |]; try discriminate. cbn [bind] in E.
      destruct (K z c I) as (J1 & J2). eapply IH; [|exact J1|exact J2|exact E]. simpl in L. lia.
    + destruct rest as [|x rest']; [injection E as <-; apply (K None c I)|].
      destruct (K (Some x) c I) as (J1 & J2). eapply IH; [|exact J1|exact J2|exact E]. simpl in L. lia.
    + destruct (K c I) as (J1 & J2). eapply IH; [|exact J1|exact J2|exact E]. lia.
    + eapply IH; [|exact I1|exact I2|exact E]. lia.
Qed.

(** Whatever the arguments are, the solver is started with a setting it implements. *)
Theorem dispatch_setting args c m len : dispatch args = Ok (SolveFinite c m) -> len = true ->
  setting m (mkCfg (c_heur c) (c_watch c) len).
Proof.
  unfold dispatch. intros E ->. destruct args as [|a rest]; [discriminate|].
  destruct (text_eqb a (txt "-help")); [discriminate|].
  destruct (text_eqb a (txt "-genben")).
  { destruct (parse_loop _ _ _) as [x| |]; try discriminate. cbn [bind] in E. destruct (c_bool_finite x); discriminate. }
  destruct (text_eqb a (txt "-b2f")). { destruct (parse_loop _ _ _); discriminate. }
  destruct (text_eqb a (txt "-linenc")). { destruct (parse_loop _ _ _); discriminate. }
  destruct (text_eqb a (txt "-quadenc")). { destruct (parse_loop _ _ _); discriminate. }
  destruct (text_eqb a (txt "-solvech")).
  { destruct (parse_loop _ _ _) as [x| |] eqn:Ep; try discriminate. injection E as <- <-.
    apply (parse_ch_inv (length rest) rest default_cline) in Ep; auto. }
  destruct (text_eqb a (txt "-solvenc")); [|discriminate].
  destruct (parse_loop _ _ _) as [x| |] eqn:Ep; try discriminate. injection E as <- <-.
  split; auto. cbn. intro W. apply (parse_nc_inv (length rest) rest default_cline) in Ep; auto. discriminate.
Qed.

(** ** The order of the options *)

Lemma fold_perm (f : cline -> opt -> cline) : 
  (forall c o1 o2, about o1 <> about o2 -> f (f c o1) o2 = f (f c o2) o1) ->
  forall os os', Permutation os os' -> NoDup (map about os) -> forall c, fold_left f os c = fold_left f os' c.
Proof.
  intros Cm os os' H. induction H as [|o os os' H IH|o1 o2 os|os1 os2 os3 H1 IH1 H2 IH2]; intros N c; auto.
  - simpl. apply IH. inversion N; auto.
  - simpl. rewrite Cm; auto. inversion N as [|? ? N1 _]; subst. intro E. apply N1. left. auto.
  - rewrite IH1 by auto. apply IH2. eapply Permutation_NoDup; [apply Permutation_map; exact H1|auto].
Qed.

Lemma nc_commute c o1 o2 : about o1 <> about o2 -> nc_apply (nc_apply c o1) o2 = nc_apply (nc_apply c o2) o1.
Proof. intro H. destruct o1, o2; cbn in H; try congruence; try reflexivity. Qed.

Lemma ch_commute c o1 o2 : about o1 <> about o2 -> ch_apply (ch_apply c o1) o2 = ch_apply (ch_apply c o2) o1.
Proof. intro H. destruct o1, o2; cbn in H; try congruence; try reflexivity. Qed.

Theorem nc_order os os' : Forall nc_option os -> Permutation os os' -> NoDup (map about os) ->
  dispatch (txt "-solvenc" :: args_of os) = dispatch (txt "-solvenc" :: args_of os').
Proof.
  intros H P N. rewrite !nc_dispatch; auto; [|eapply Permutation_Forall; eauto].
  rewrite (fold_perm nc_apply nc_commute os os'); auto.
Qed.

Theorem ch_order os os' : Forall ch_option os -> Permutation os os' -> NoDup (map about os) ->
  dispatch (txt "-solvech" :: args_of os) = dispatch (txt "-solvech" :: args_of os').
Proof.
  intros H P N. rewrite !ch_dispatch; auto; [|eapply Permutation_Forall; eauto].
  rewrite (fold_perm ch_apply ch_commute os os'); auto.
Qed.

(** ** Numbers *)

Lemma digit_of_char d : (d <= 9)%nat -> digit (digit_char d) = Some (Z.of_nat d).
Proof. intro H. do 10 (destruct d as [|d]; [reflexivity|]). lia. Qed.

Lemma digit_is a z : digit a = Some z -> a_digit a.
Proof.
  unfold digit. destruct (_ && _) eqn:E; [|discriminate]. intros _. apply andb_true_iff in E. destruct E as (E1 & E2).
  apply Nat.leb_le in E1, E2. exists (nat_of_ascii a - 48)%nat. split; [lia|]. unfold digit_char.
  replace (48 + (nat_of_ascii a - 48))%nat with (nat_of_ascii a) by lia. symmetry. apply ascii_nat_embedding.
Qed.

Lemma space_is a : space_char a <-> isspace a = true.
Proof.
  unfold space_char, isspace. split.
  - intros H. repeat destruct H as [<-|H]; try reflexivity. destruct H.
  - intro H. apply orb_true_iff in H. rewrite andb_true_iff, !Nat.leb_le, Nat.eqb_eq in H. simpl. lia.
Qed.

Lemma scan_ds : forall ds acc junk, Forall (fun d => d <= 9)%nat ds -> (forall a r, junk = a :: r -> ~ a_digit a) ->
  scan_digits acc (map digit_char ds ++ junk) = (fold_left (fun z d => 10 * z + Z.of_nat d) ds acc, junk).
Proof.
  induction ds as [|d ds IH]; intros acc junk F J.
  - cbn [map app fold_left]. destruct junk as [|a r]; [reflexivity|]. cbn [scan_digits]. destruct (digit a) eqn:E; auto.
    apply digit_is in E. destruct (J a r eq_refl E).
  - inversion F; subst. cbn [map app scan_digits fold_left]. rewrite digit_of_char by auto. apply IH; auto.
Qed.

Lemma skip_sp sp t : Forall space_char sp -> skip_space (sp ++ t) = skip_space t.
Proof. induction 1 as [|a sp H _ IH]; auto. cbn [app skip_space]. apply space_is in H. rewrite H. auto. Qed.

Lemma skip_none a t : ~ space_char a -> skip_space (a :: t) = a :: t.
Proof. intro H. cbn [skip_space]. destruct (isspace a) eqn:E; auto. apply space_is in E. contradiction. Qed.

Lemma scan_signed a t : a <> "+"%char -> a <> "-"%char -> scan_int (a :: t) = scan_nat (a :: t).
Proof. intros N1 N2. destruct a as [[] [] [] [] [] [] [] []]; try reflexivity; congruence. Qed.

Lemma digit_not d : (d <= 9)%nat -> ~ space_char (digit_char d) /\ digit_char d <> "+"%char /\ digit_char d <> "-"%char.
Proof.
  intro H. do 10 (destruct d as [|d]; [split; [intro Q; cbn in Q; intuition discriminate|split; discriminate]|]). lia.
Qed.

Lemma scan_nat_ds ds junk : ds <> [] -> Forall (fun d => d <= 9)%nat ds -> (forall a r, junk = a :: r -> ~ a_digit a) ->
  scan_nat (map digit_char ds ++ junk) = Some (of_digits ds, junk).
Proof.
  intros N F J. unfold of_digits. rewrite <- (scan_ds ds 0 junk F J). destruct ds as [|d ds]; [congruence|]. inversion F; subst.
  cbn [map app scan_nat]. rewrite digit_of_char by auto. reflexivity.
Qed.

Lemma atoi_value w z : value_of w z -> atoi w = if in_int z then Ok z else Undef BadScan.
Proof.
  intros [sp sg ds junk S G N F J|sp sg junk S G J]; unfold atoi; rewrite skip_sp by auto.
  - assert (E : skip_space (sg ++ map digit_char ds ++ junk) = sg ++ map digit_char ds ++ junk).
    { destruct G as [<-|[<-|[<-|[]]]]; [|reflexivity|reflexivity]. cbn [txt list_ascii_of_string app].
      destruct ds as [|d ds]; [congruence|]. inversion F; subst. apply skip_none, digit_not. auto. }
    rewrite E. clear E. destruct G as [<-|[<-|[<-|[]]]].
    + destruct (text_dec (txt "") (txt "-")) as [Q|_]; [discriminate|]. cbn [txt list_ascii_of_string app].
      assert (E : scan_int (map digit_char ds ++ junk) = Some (of_digits ds, junk)); [|rewrite E; reflexivity].
      rewrite <- scan_nat_ds by auto. destruct ds as [|d ds]; [congruence|]. inversion F; subst. apply scan_signed; apply digit_not; auto.
    + destruct (text_dec (txt "+") (txt "-")) as [Q|_]; [discriminate|].
      assert (E : scan_int (txt "+" ++ map digit_char ds ++ junk) = scan_nat (map digit_char ds ++ junk)) by reflexivity.
      rewrite E, scan_nat_ds by auto. reflexivity.
    + destruct (text_dec (txt "-") (txt "-")) as [_|Q]; [|congruence].
      assert (E : scan_int (txt "-" ++ map digit_char ds ++ junk) = match scan_nat (map digit_char ds ++ junk) with Some (z, r) => Some (- z, r) | None => None end) by reflexivity.
      rewrite E, scan_nat_ds by auto. reflexivity.
  - assert (E : scan_int (skip_space (sg ++ junk)) = None); [|rewrite E; reflexivity].
    assert (Nn : forall a r, junk = a :: r -> digit a = None).
    { intros a r ->. destruct (digit a) eqn:E; auto. apply digit_is in E. destruct (J a r eq_refl). contradiction. }
    assert (K : scan_nat junk = None). { destruct junk as [|a r]; auto. cbn [scan_nat]. rewrite (Nn a r eq_refl). auto. }
    destruct G as [<-|[<-|[<-|[]]]].
    + cbn [txt list_ascii_of_string app]. destruct junk as [|a r]; [reflexivity|]. destruct (J a r eq_refl) as (_ & J2).
      destruct (J2 eq_refl) as (J3 & J4 & J5). rewrite skip_none, scan_signed by auto. exact K.
    + change (skip_space (txt "+" ++ junk)) with (txt "+" ++ junk).
      change (scan_int (txt "+" ++ junk)) with (scan_nat junk). exact K.
    + change (skip_space (txt "-" ++ junk)) with (txt "-" ++ junk).
      change (scan_int (txt "-" ++ junk)) with (match scan_nat junk with Some (z, r) => Some (- z, r) | None => None end). rewrite K. reflexivity.
Qed.

Lemma nc_pre : forall os rest c, Forall nc_option os ->
  parse_loop tb_solvenc (args_of os ++ rest) c = parse_loop tb_solvenc rest (fold_left nc_apply os c).
Proof.
  induction os as [|o os IH]; intros rest c H; [reflexivity|]. inversion H; subst. unfold args_of. simpl map. cbn [List.concat].
  rewrite <- app_assoc, nc_step by auto. apply IH. auto.
Qed.
Lemma ch_pre : forall os rest c, Forall ch_option os ->
  parse_loop tb_solvech (args_of os ++ rest) c = parse_loop tb_solvech rest (fold_left ch_apply os c).
Proof.
  induction os as [|o os IH]; intros rest c H; [reflexivity|]. inversion H; subst. unfold args_of. simpl map. cbn [List.concat].
  rewrite <- app_assoc, ch_step by auto. apply IH. auto.
Qed.

(** A word that stands for a number is as good as the number. *)
Lemma nc_number os a w z rest : Forall nc_option os -> In a (map txt ["-restart"; "-var"; "-clause"; "-clausesize"; "-time"]%string) -> value_of w z ->
  dispatch (txt "-solvenc" :: args_of os ++ a :: w :: rest) =
    if in_int z then dispatch (txt "-solvenc" :: args_of os ++ a :: num z :: rest) else Undef BadScan.
Proof.
  intros H Ha V. apply atoi_value in V. unfold dispatch. cbn [text_eqb txt list_ascii_of_string Ascii.eqb Bool.eqb andb].
  rewrite !nc_pre by auto. cbn [map] in Ha.
  repeat (destruct Ha as [<-|Ha]; [cbn [parse_loop lookup tb_solvenc text_eqb txt list_ascii_of_string Ascii.eqb Bool.eqb andb];
    rewrite V; destruct (in_int z) eqn:E; [rewrite atoi_num by auto|]; reflexivity|]). destruct Ha.
Qed.
Lemma ch_number os a w z rest : Forall ch_option os -> In a (map txt ["-var"; "-clause"; "-clausesize"; "-time"]%string) -> value_of w z ->
  dispatch (txt "-solvech" :: args_of os ++ a :: w :: rest) =
    if in_int z then dispatch (txt "-solvech" :: args_of os ++ a :: num z :: rest) else Undef BadScan.
Proof.
  intros H Ha V. apply atoi_value in V. unfold dispatch. cbn [text_eqb txt list_ascii_of_string Ascii.eqb Bool.eqb andb].
  rewrite !ch_pre by auto. cbn [map] in Ha.
  repeat (destruct Ha as [<-|Ha]; [cbn [parse_loop lookup tb_solvech text_eqb txt list_ascii_of_string Ascii.eqb Bool.eqb andb];
    rewrite V; destruct (in_int z) eqn:E; [rewrite atoi_num by auto|]; reflexivity|]). destruct Ha.
Qed.

Lemma in_int_iff z : in_int z = true <-> an_int z.
Proof. unfold an_int, in_int. lia. Qed.

Lemma nc_number_prop os a w z rest : Forall nc_option os ->
  In a (map txt ["-restart"; "-var"; "-clause"; "-clausesize"; "-time"]%string) -> value_of w z ->
  (an_int z -> dispatch (txt "-solvenc" :: args_of os ++ a :: w :: rest) = dispatch (txt "-solvenc" :: args_of os ++ a :: num z :: rest)) /\
  (~ an_int z -> dispatch (txt "-solvenc" :: args_of os ++ a :: w :: rest) = Undef BadScan).
Proof.
  intros H Ha V. rewrite (nc_number os a w z rest H Ha V). rewrite <- in_int_iff. destruct (in_int z); split; intro; congruence.
Qed.
Lemma ch_number_prop os a w z rest : Forall ch_option os ->
  In a (map txt ["-var"; "-clause"; "-clausesize"; "-time"]%string) -> value_of w z ->
  (an_int z -> dispatch (txt "-solvech" :: args_of os ++ a :: w :: rest) = dispatch (txt "-solvech" :: args_of os ++ a :: num z :: rest)) /\
  (~ an_int z -> dispatch (txt "-solvech" :: args_of os ++ a :: w :: rest) = Undef BadScan).
Proof.
  intros H Ha V. rewrite (ch_number os a w z rest H Ha V). rewrite <- in_int_iff. destruct (in_int z); split; intro; congruence.
Qed.

(** ** -clausesize *)
Lemma clause_size_run fuel len clk fs c m f t ls :
  c_file c = Some f -> fs f = Some t -> has_lines t ls -> lines_below 3000 t ->
  solve_finite fuel len clk fs c m =
  if (c_clause_size c <? 0) && negb (Nat.eqb (length ls) 0) then Undef BadAlloc
  else let* q := solve_file fuel m (mkCfg (c_heur c) (c_watch c) len) clk (c_restarts c) t in
       let (rep, s) := q in Ok (Solved rep s).
Proof.
  intros F T L B. unfold solve_finite. rewrite F, T. rewrite (getlines_has t ls L); [reflexivity|].
  intros l Hl. exact (B ls L l Hl).
Qed.
