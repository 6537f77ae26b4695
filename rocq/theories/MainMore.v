(** * Facts about the converters, the generators, the files and the menu *)

From Coq Require Import Ascii String Permutation.
From Verif Require Import Spec Outcome State ModelSearch ModelBuild Runs Observe Base TextSpec ModelText ModelRead Text
  CliSpec ModelCli Cli ModelEncode ModelB2f ModelGen ModelMenu ModelMain MainSpec MainFacts Frame.
#[local] Open Scope Z_scope.

(** ** Options of the converters and the generators *)

Definition conv_apply (c : cline) (o : opt) : cline :=
  match o with OFile f => with_file (Some f) c | OModelFile f => with_model_file (Some f) c | _ => c end.

Lemma conv_step o rest c : conv_option o ->
  parse_loop tb_convert (opt_text o ++ rest) c = parse_loop tb_convert rest (conv_apply c o).
Proof.
  intro H. destruct o; cbn [opt_text app conv_option] in *; try reflexivity; try (destruct H; fail).
  cbn [parse_loop]. rewrite lookup_none; auto.
Qed.

Lemma conv_parse : forall os c, Forall conv_option os -> parse_loop tb_convert (args_of os) c = Ok (fold_left conv_apply os c).
Proof.
  induction os as [|o os IH]; intros c H; [reflexivity|]. inversion H; subst. unfold args_of. simpl map. cbn [List.concat].
  rewrite conv_step by auto. apply IH. auto.
Qed.

Lemma conv_fields : forall os c, Forall conv_option os -> let r := fold_left conv_apply os c in
  c_file r = latest sel_file os (c_file c) /\ c_model_file r = latest sel_model os (c_model_file c).
Proof.
  induction os as [|o os IH]; intros c H r; [unfold r; auto|].
  inversion H as [|? ? Ho Hos]; subst. unfold r. cbn [fold_left latest].
  destruct (IH (conv_apply c o) Hos) as (E1 & E2). rewrite E1, E2. destruct o; cbn; auto; destruct Ho.
Qed.

Lemma conv_dispatch os : Forall conv_option os -> exists c,
  c_file c = latest sel_file os None /\ c_model_file c = latest sel_model os None /\
  dispatch (txt "-b2f" :: args_of os) = Ok (Boolean2Finite c) /\
  dispatch (txt "-linenc" :: args_of os) = Ok (LinearEncode c) /\
  dispatch (txt "-quadenc" :: args_of os) = Ok (QuadraticEncode c).
Proof.
  intro H. exists (fold_left conv_apply os default_cline). destruct (conv_fields os default_cline H) as (E1 & E2).
  split; [exact E1|]. split; [exact E2|]. unfold dispatch.
  cbn [text_eqb txt list_ascii_of_string Ascii.eqb Bool.eqb andb]. rewrite conv_parse by auto. repeat split; reflexivity.
Qed.

Definition gen_apply (c : cline) (o : gen_opt) : cline :=
  match o with
  | GVar n => with_var n c | GClause n => with_clause n c | GSize n => with_clause_size n c
  | GSat n => with_sat n c | GDomain n => with_domain n c | GDrand n => with_drand n c | GBool n => with_bool n c
  | GFile f => with_file (Some f) c | GWord _ => c
  end.

Lemma gen_step o rest c : gen_option o ->
  parse_loop tb_genben (gen_text o ++ rest) c = parse_loop tb_genben rest (gen_apply c o).
Proof.
  intro H. destruct o; cbn [gen_text app gen_option] in *; try reflexivity.
  all: try (cbn; rewrite atoi_num by (apply an_int_in; exact H); reflexivity).
  cbn [parse_loop]. rewrite lookup_none; auto.
Qed.

Lemma gen_parse : forall os c, Forall gen_option os -> parse_loop tb_genben (List.concat (map gen_text os)) c = Ok (fold_left gen_apply os c).
Proof.
  induction os as [|o os IH]; intros c H; [reflexivity|]. inversion H; subst. cbn [map List.concat].
  rewrite gen_step by auto. apply IH. auto.
Qed.

Lemma gen_fields : forall os c, let r := fold_left gen_apply os c in
  c_num_var r = final (fun o => match o with GVar n => Some n | _ => None end) os (c_num_var c) /\
  c_num_clause r = final (fun o => match o with GClause n => Some n | _ => None end) os (c_num_clause c) /\
  c_clause_size r = final (fun o => match o with GSize n => Some n | _ => None end) os (c_clause_size c) /\
  c_sat r = final (fun o => match o with GSat n => Some (negb (n =? 0)) | _ => None end) os (c_sat c) /\
  c_domain r = final (fun o => match o with GDomain n => Some n | _ => None end) os (c_domain c) /\
  c_drand r = final (fun o => match o with GDrand n => Some (negb (n =? 0)) | _ => None end) os (c_drand c) /\
  c_bool_finite r = final (fun o => match o with GBool n => Some (negb (n =? 0)) | _ => None end) os (c_bool_finite c) /\
  c_file r = final (fun o => match o with GFile f => Some (Some f) | _ => None end) os (c_file c).
Proof.
  induction os as [|o os IH]; intros c r; [unfold r; repeat split|]. unfold r. cbn [fold_left final].
  destruct (IH (gen_apply c o)) as (E1 & E2 & E3 & E4 & E5 & E6 & E7 & E8).
  rewrite E1, E2, E3, E4, E5, E6, E7, E8. destruct o; cbn; repeat split; auto.
Qed.

Lemma gen_dispatch os : Forall gen_option os ->
  let c := fold_left gen_apply os default_cline in
  dispatch (txt "-genben" :: List.concat (map gen_text os)) = Ok (if c_bool_finite c then GenBenFin c else GenBenBool c).
Proof.
  intro H. unfold dispatch. cbn [text_eqb txt list_ascii_of_string Ascii.eqb Bool.eqb andb]. rewrite gen_parse by auto. reflexivity.
Qed.

(** ** Which files a run can change *)

Lemma write_other fs g t h : h <> g -> write_file fs g t h = fs h.
Proof. intro N. unfold write_file. destruct (text_eqb_spec h g); congruence. Qed.
Lemma write_same fs g t : write_file fs g t g = Some t.
Proof. unfold write_file. destruct (text_eqb_spec g g); congruence. Qed.

(** A name kept by the loop over the options follows its option. *)
Lemma parse_name tb k (sel : cline -> option text) : forall n args c c' h, (length args <= n)%nat ->
  (forall a e, lookup a tb = Some e ->
     match e with
     | EFlag f => forall c, sel (f c) = sel c
     | EInt f => forall z c, sel (f z c) = sel c
     | EStr f => (forall x c, sel (f x c) = sel c) \/ (a = k /\ forall x c, sel (f x c) = x)
     end) ->
  parse_loop tb args c = Ok c' -> sel c' = Some h ->
  sel c = Some h \/ exists a b, args = a ++ k :: h :: b.
Proof.
  induction n as [|n IH]; intros args c c' h L K E S.
  - destruct args; [|simpl in L; lia]. injection E as <-. auto.
  - destruct args as [|a rest]; [injection E as <-; auto|]. simpl in L. cbn [parse_loop] in E.
    destruct (lookup a tb) as [e|] eqn:El.
    + pose proof (K a e El) as Ka. destruct e as [f|f|f].
      * destruct rest as [|x rest']; [discriminate|]. apply bind_ok in E. destruct E as (z & _ & E).
        destruct (IH rest' _ _ h ltac:(simpl in L; lia) K E S) as [X|(a' & b' & X)].
        -- rewrite Ka in X. auto.
        -- right. exists (a :: x :: a'), b'. rewrite X. reflexivity.
      * destruct rest as [|x rest'].
        -- injection E as <-. destruct Ka as [Ka|(-> & Ka)]; rewrite Ka in S; [auto|discriminate].
        -- destruct (IH rest' _ _ h ltac:(simpl in L; lia) K E S) as [X|(a' & b' & X)].
           ++ destruct Ka as [Ka|(-> & Ka)]; rewrite Ka in X; [auto|]. injection X as ->. right. exists [], rest'. reflexivity.
           ++ right. exists (a :: x :: a'), b'. rewrite X. reflexivity.
      * destruct (IH rest _ _ h ltac:(lia) K E S) as [X|(a' & b' & X)].
        -- rewrite Ka in X. auto.
        -- right. exists (a :: a'), b'. rewrite X. reflexivity.
    + destruct (IH rest _ _ h ltac:(lia) K E S) as [X|(a' & b' & X)]; auto. right. exists (a :: a'), b'. rewrite X. reflexivity.
Qed.

Lemma conv_name args c c' h : parse_loop tb_convert args c = Ok c' -> c_model_file c = None -> c_model_file c' = Some h ->
  exists a b, args = a ++ txt "-model" :: h :: b.
Proof.
  intros E N S. destruct (parse_name tb_convert (txt "-model") c_model_file (length args) args c c' h) as [X|X]; auto; [|congruence].
  intros a e. unfold tb_convert. cbn [lookup].
  destruct (text_eqb a (txt "-file")); [intro Q; injection Q as <-; left; reflexivity|].
  destruct (text_eqb_spec a (txt "-model")) as [->|]; [intro Q; injection Q as <-; right; split; reflexivity|discriminate].
Qed.

Lemma gen_name args c c' h : parse_loop tb_genben args c = Ok c' -> c_file c = None -> c_file c' = Some h ->
  exists a b, args = a ++ txt "-file" :: h :: b.
Proof.
  intros E N S. destruct (parse_name tb_genben (txt "-file") c_file (length args) args c c' h) as [X|X]; auto; [|congruence].
  intros a e. unfold tb_genben. cbn [lookup].
  repeat (match goal with |- (if text_eqb a ?x then _ else _) = _ -> _ =>
    destruct (text_eqb_spec a x) as [->|]; [intro Q; injection Q as <-; try reflexivity; right; split; reflexivity|] end).
  discriminate.
Qed.

Definition converter (a : text) : Prop := a = txt "-b2f" \/ a = txt "-linenc" \/ a = txt "-quadenc".

Lemma dispatch_convert args k c : dispatch args = Ok k -> k = Boolean2Finite c \/ k = LinearEncode c \/ k = QuadraticEncode c ->
  exists a rest, args = a :: rest /\ converter a /\ parse_loop tb_convert rest default_cline = Ok c.
Proof.
  unfold dispatch. destruct args as [|a rest]; [intros E; injection E as <-; intros [X|[X|X]]; discriminate|].
  destruct (text_eqb a (txt "-help")); [intros E; injection E as <-; intros [X|[X|X]]; discriminate|].
  destruct (text_eqb a (txt "-genben")).
  { intros E. apply bind_ok in E. destruct E as (c0 & _ & E). destruct (c_bool_finite c0); injection E as <-; intros [X|[X|X]]; discriminate. }
  destruct (text_eqb_spec a (txt "-b2f")).
  { intros E. apply bind_ok in E. destruct E as (c0 & E0 & E). injection E as <-. intro X. exists a, rest. split; auto. split; [left; auto|].
    destruct X as [X|[X|X]]; try discriminate. injection X as ->. exact E0. }
  destruct (text_eqb_spec a (txt "-linenc")).
  { intros E. apply bind_ok in E. destruct E as (c0 & E0 & E). injection E as <-. intro X. exists a, rest. split; auto. split; [right; left; auto|].
    destruct X as [X|[X|X]]; try discriminate. injection X as ->. exact E0. }
  destruct (text_eqb_spec a (txt "-quadenc")).
  { intros E. apply bind_ok in E. destruct E as (c0 & E0 & E). injection E as <-. intro X. exists a, rest. split; auto. split; [right; right; auto|].
    destruct X as [X|[X|X]]; try discriminate. injection X as ->. exact E0. }
  destruct (text_eqb a (txt "-solvech")); [intros E; apply bind_ok in E; destruct E as (c0 & _ & E); injection E as <-; intros [X|[X|X]]; discriminate|].
  destruct (text_eqb a (txt "-solvenc")); [intros E; apply bind_ok in E; destruct E as (c0 & _ & E); injection E as <-; intros [X|[X|X]]; discriminate|].
  intros E; injection E as <-; intros [X|[X|X]]; discriminate.
Qed.

Lemma dispatch_generate args k c : dispatch args = Ok k -> k = GenBenFin c \/ k = GenBenBool c ->
  exists rest, args = txt "-genben" :: rest /\ parse_loop tb_genben rest default_cline = Ok c.
Proof.
  unfold dispatch. destruct args as [|a rest]; [intros E; injection E as <-; intros [X|X]; discriminate|].
  destruct (text_eqb a (txt "-help")); [intros E; injection E as <-; intros [X|X]; discriminate|].
  destruct (text_eqb_spec a (txt "-genben")) as [->|_].
  { intros E. apply bind_ok in E. destruct E as (c0 & E0 & E). intro X. exists rest. split; auto.
    destruct (c_bool_finite c0); injection E as <-; destruct X as [X|X]; try discriminate; injection X as ->; exact E0. }
  repeat match goal with |- (if ?b then _ else _) = _ -> _ => destruct b end;
    intros E; try (apply bind_ok in E; destruct E as (c0 & _ & E)); injection E as <-; intros [X|X]; discriminate.
Qed.

Theorem files_kept fuel args w r h : main fuel args w = Ok r -> after r h <> files_of w h ->
  status r = 0 /\ writable w h = true /\
  ((exists a x y, args = a :: x ++ txt "-model" :: h :: y /\ converter a) \/
   (exists x y, args = txt "-genben" :: x ++ txt "-file" :: h :: y)).
Proof.
  unfold main. intro E. apply bind_ok in E. destruct E as (k & Ek & E).
  assert (CV : forall conv i o c, k = Boolean2Finite c \/ k = LinearEncode c \/ k = QuadraticEncode c ->
    run_convert conv i o w c = Ok r -> after r h <> files_of w h ->
    status r = 0 /\ writable w h = true /\ exists a x y, args = a :: x ++ txt "-model" :: h :: y /\ converter a).
  { intros conv i o c Hk Er Ha. unfold run_convert in Er. destruct (c_file c) as [f|]; [|discriminate].
    destruct (files_of w f) as [t|]; [|injection Er as <-; cbn in Ha; congruence].
    destruct (c_model_file c) as [g|] eqn:Eg; [|discriminate].
    destruct (writable w g) eqn:Ew; [|injection Er as <-; cbn in Ha; congruence].
    apply bind_ok in Er. destruct Er as (t' & _ & Er). injection Er as <-. cbn [after status] in *.
    assert (h = g) as ->. { destruct (text_eqb_spec h g); auto. exfalso. apply Ha. apply write_other. auto. }
    split; auto. split; auto. destruct (dispatch_convert args k c Ek Hk) as (a & rest & -> & C & P).
    destruct (conv_name rest default_cline c g P eq_refl Eg) as (x & y & ->). exists a, x, y. auto. }
  assert (GN : forall gen c, k = GenBenFin c \/ k = GenBenBool c ->
    run_generate gen w c = Ok r -> after r h <> files_of w h ->
    status r = 0 /\ writable w h = true /\ exists x y, args = txt "-genben" :: x ++ txt "-file" :: h :: y).
  { intros gen c Hk Er Ha. unfold run_generate in Er. apply bind_ok in Er. destruct Er as (t & _ & Er).
    destruct (c_file c) as [f|] eqn:Ef; [|discriminate].
    destruct (writable w f) eqn:Ew; [|injection Er as <-; cbn in Ha; congruence].
    injection Er as <-. cbn [after status] in *.
    assert (h = f) as ->. { destruct (text_eqb_spec h f); auto. exfalso. apply Ha. apply write_other. auto. }
    split; auto. split; auto. destruct (dispatch_generate args k c Ek Hk) as (rest & -> & P).
    destruct (gen_name rest default_cline c f P eq_refl Ef) as (x & y & ->). exists x, y. auto. }
  intro Ha. destruct k as [|c|c|c|c|c|c m].
  - apply bind_ok in E. destruct E as (t & _ & E). injection E as <-. cbn in Ha. congruence.
  - destruct (GN gen_fin c) as (A & B & C); auto.
  - destruct (GN gen_bool c) as (A & B & C); auto.
  - destruct (CV _ _ _ c ltac:(auto) E Ha) as (A & B & C); auto.
  - destruct (CV _ _ _ c ltac:(auto) E Ha) as (A & B & C); auto.
  - destruct (CV _ _ _ c ltac:(auto) E Ha) as (A & B & C); auto.
  - exfalso. apply Ha. unfold run_solver in E. apply bind_ok in E. destruct E as (q & _ & E).
    destruct q as [|rep s]; [injection E as <-; reflexivity|]. destruct (c_file c); injection E as <-; reflexivity.
Qed.

Theorem files_one fuel args w r h h' : main fuel args w = Ok r -> after r h <> files_of w h -> after r h' <> files_of w h' -> h = h'.
Proof.
  unfold main. intro E. apply bind_ok in E. destruct E as (k & Ek & E).
  assert (CV : forall conv i o c, run_convert conv i o w c = Ok r -> after r h <> files_of w h -> after r h' <> files_of w h' -> h = h').
  { intros conv i o c Er Ha Hb. unfold run_convert in Er. destruct (c_file c) as [f|]; [|discriminate].
    destruct (files_of w f) as [t|]; [|injection Er as <-; cbn in Ha; congruence].
    destruct (c_model_file c) as [g|] eqn:Eg; [|discriminate].
    destruct (writable w g) eqn:Ew; [|injection Er as <-; cbn in Ha; congruence].
    apply bind_ok in Er. destruct Er as (t' & _ & Er). injection Er as <-. cbn [after] in *.
    destruct (text_eqb_spec h g) as [->|]; [|exfalso; apply Ha, write_other; auto].
    destruct (text_eqb_spec h' g) as [->|]; [reflexivity|exfalso; apply Hb, write_other; auto]. }
  assert (GN : forall gen c, run_generate gen w c = Ok r -> after r h <> files_of w h -> after r h' <> files_of w h' -> h = h').
  { intros gen c Er Ha Hb. unfold run_generate in Er. apply bind_ok in Er. destruct Er as (t & _ & Er).
    destruct (c_file c) as [g|] eqn:Ef; [|discriminate].
    destruct (writable w g) eqn:Ew; [|injection Er as <-; cbn in Ha; congruence].
    injection Er as <-. cbn [after] in *.
    destruct (text_eqb_spec h g) as [->|]; [|exfalso; apply Ha, write_other; auto].
    destruct (text_eqb_spec h' g) as [->|]; [reflexivity|exfalso; apply Hb, write_other; auto]. }
  intros Ha Hb. destruct k as [|c|c|c|c|c|c m]; eauto.
  - apply bind_ok in E. destruct E as (t & _ & E). injection E as <-. cbn in Ha. congruence.
  - exfalso. apply Ha. unfold run_solver in E. apply bind_ok in E. destruct E as (q & _ & E).
    destruct q as [|rep s]; [injection E as <-; reflexivity|]. destruct (c_file c); injection E as <-; reflexivity.
Qed.

(** ** Runs of the converters *)

Lemma convert_run conv i o w c f g t t' : c_file c = Some f -> c_model_file c = Some g -> f <> g ->
  files_of w f = Some t -> writable w g = true -> conv t = Ok t' ->
  run_convert conv i o w c = Ok (mkRan title 0 (write_file (files_of w) g t')).
Proof.
  intros Ef Eg N Et Ew Ec. unfold run_convert. rewrite Ef, Et, Eg, Ew.
  destruct (text_eqb_spec f g); [contradiction|]. rewrite Ec. cbn [bind]. rewrite banner_title. reflexivity.
Qed.

Lemma convert_same conv i o w c f t : c_file c = Some f -> c_model_file c = Some f ->
  files_of w f = Some t -> writable w f = true ->
  run_convert conv i o w c = let* t' := conv [] in Ok (mkRan title 0 (write_file (files_of w) f t')).
Proof.
  intros Ef Eg Et Ew. unfold run_convert. rewrite Ef, Et, Eg, Ew.
  destruct (text_eqb_spec f f); [|congruence]. rewrite banner_title. reflexivity.
Qed.

(** ** The menu *)

Lemma page_case k : page k = menu_text ++ LF :: fst (menu_case k).
Proof.
  unfold page. f_equal. f_equal. destruct ((0 <=? k) && (k <=? 6))%bool eqn:E.
  - apply andb_prop in E. destruct E as [A B]. apply Z.leb_le in A, B.
    assert (C : k = 0 \/ k = 1 \/ k = 2 \/ k = 3 \/ k = 4 \/ k = 5 \/ k = 6) by lia.
    repeat (destruct C as [->|C]; [reflexivity|]). subst. reflexivity.
  - destruct k as [|q|q]; [discriminate| |reflexivity].
    destruct q as [[[q|q|]|[q|q|]|]|[[q|q|]|[q|q|]|]|]; try reflexivity; discriminate.
Qed.

Lemma stop_case k : snd (menu_case k) = true <-> k = 0.
Proof.
  split; [|intros ->; reflexivity]. destruct k as [|q|q]; [reflexivity| |discriminate].
  destruct q as [[[q|q|]|[q|q|]|]|[[q|q|]|[q|q|]|]|]; discriminate.
Qed.

Lemma clip z : in_int z = true -> Z.max (-2147483648) (Z.min 2147483647 z) = z.
Proof. unfold in_int. intro H. apply andb_prop in H. destruct H as [A B]. apply Z.leb_le in A, B. lia. Qed.

Lemma num_cons z : exists a q, num z = a :: q.
Proof.
  destruct (Z.ltb_spec z 0).
  - destruct z as [|p|p]; try lia. rewrite num_neg. eexists _, _. reflexivity.
  - destruct (num_digits z H) as (a & q & E & _). eauto.
Qed.

Lemma cin_num k r old : in_int k = true -> stops r ->
  cin_int true (num k ++ r) old = (match r with [] => false | _ => true end, r, k).
Proof.
  intros I S. unfold cin_int. cbn [negb]. rewrite skip_num. destruct (num_cons k) as (a & q & E).
  pose proof (scan_num k r S) as Q. rewrite E in *. cbn [app] in *. rewrite Q. rewrite I, clip by auto. destruct r; reflexivity.
Qed.

Lemma menu_page k r fuel old : in_int k = true -> k <> 0 -> stops r ->
  menu (S fuel) true old (num k ++ r) =
  let* rest := menu fuel (match r with [] => false | _ => true end) k (getchar (getchar r)) in Ok (page k ++ rest).
Proof.
  intros I N S. cbn [menu]. rewrite cin_num by auto. rewrite page_case. pose proof (stop_case k) as C.
  destruct (menu_case k) as [out b]. cbn [fst snd] in *. destruct b; [destruct C as [C _]; specialize (C eq_refl); contradiction|].
  destruct (menu _ _ _ _); cbn [bind]; auto.
Qed.

Lemma menu_quit r old fuel : stops r -> menu (S fuel) true old (num 0 ++ r) = Ok (page 0).
Proof. intro S. cbn [menu]. rewrite cin_num by auto. reflexivity. Qed.

Theorem menu_reads : forall ks r fuel old, Forall choice ks -> stops r -> (length ks < fuel)%nat ->
  menu fuel true old (entered ks ++ num 0 ++ r) = Ok (List.concat (map page (map (fun e => fst (fst e)) ks ++ [0]))).
Proof.
  induction ks as [|[[k y] x] ks IH]; intros r fuel old F S L.
  - destruct fuel; [simpl in L; lia|]. cbn [entered map List.concat app]. rewrite menu_quit by auto. rewrite app_nil_r. reflexivity.
  - inversion F as [|? ? C F']; subst. change (k <> 0 /\ an_int k /\ digit y = None) in C. destruct C as (N & I & Y). destruct fuel as [|fuel]; [simpl in L; lia|].
    unfold entered. cbn [map List.concat]. rewrite <- !app_assoc. cbn [app]. fold (entered ks).
    rewrite menu_page; [|apply an_int_in; auto|auto|unfold stops, is_digit; rewrite Y; reflexivity].
    cbn [getchar]. rewrite IH by (auto; simpl in L; lia). reflexivity.
Qed.

Theorem menu_not_number t fuel : (forall z r, scan_int (skip_space t) <> Some (z, r)) -> print_help (S fuel) t = Ok (page 0).
Proof.
  intro H. unfold print_help. cbn [menu]. unfold cin_int. cbn [negb]. destruct (skip_space t) as [|a q]; [reflexivity|].
  destruct (scan_int (a :: q)) as [[z r]|]; [destruct (H z r eq_refl)|]. reflexivity.
Qed.

Lemma menu_stuck : forall fuel k t, k <> 0 -> menu fuel false k t = OutOfFuel.
Proof.
  induction fuel as [|fuel IH]; intros k t N; [reflexivity|]. cbn [menu cin_int negb].
  pose proof (stop_case k) as C. destruct (menu_case k) as [out b]. cbn [snd] in C.
  destruct b; [destruct C as [C _]; specialize (C eq_refl); contradiction|]. rewrite IH by auto. reflexivity.
Qed.

Lemma menu_blank fuel k b : k <> 0 -> (forall a, In a b -> isspace a = true) -> menu fuel true k b = OutOfFuel.
Proof.
  intros N B. destruct fuel as [|fuel]; [reflexivity|]. cbn [menu]. unfold cin_int. cbn [negb].
  assert (E : skip_space b = []). { clear -B. induction b as [|a b IH]; [reflexivity|]. cbn [skip_space]. rewrite (B a) by (left; auto). apply IH. intros; apply B; right; auto. }
  rewrite E. pose proof (stop_case k) as C. destruct (menu_case k) as [out s]. cbn [snd] in C.
  destruct s; [destruct C as [C _]; specialize (C eq_refl); contradiction|]. rewrite menu_stuck by auto. reflexivity.
Qed.

Theorem menu_endless : forall ks b fuel old, Forall choice ks -> ks <> [] -> (forall a, In a b -> isspace a = true) ->
  menu fuel true old (entered ks ++ b) = OutOfFuel.
Proof.
  induction ks as [|[[k y] x] ks IH]; intros b fuel old F N B; [congruence|].
  inversion F as [|? ? C F']; subst. change (k <> 0 /\ an_int k /\ digit y = None) in C. destruct C as (K & I & Y). destruct fuel as [|fuel]; [reflexivity|].
  unfold entered. cbn [map List.concat]. rewrite <- !app_assoc. cbn [app]. fold (entered ks).
  rewrite menu_page; [|apply an_int_in; auto|auto|unfold stops, is_digit; rewrite Y; reflexivity]. cbn [getchar].
  destruct ks as [|e ks]; [cbn [entered map List.concat app]; rewrite menu_blank by auto; reflexivity|].
  rewrite IH; auto. discriminate.
Qed.

Theorem menu_word : forall ks u fuel old, Forall choice ks -> skip_space u <> [] -> (forall z r, scan_int (skip_space u) <> Some (z, r)) ->
  (length ks < fuel)%nat ->
  menu fuel true old (entered ks ++ u) = Ok (List.concat (map page (map (fun e => fst (fst e)) ks ++ [0]))).
Proof.
  induction ks as [|[[k y] x] ks IH]; intros u fuel old F NE H L.
  - destruct fuel; [simpl in L; lia|]. cbn [entered map List.concat app]. rewrite app_nil_r. cbn [menu]. unfold cin_int. cbn [negb].
    destruct (skip_space u) as [|a q]; [congruence|]. destruct (scan_int (a :: q)) as [[z r]|]; [destruct (H z r eq_refl)|]. reflexivity.
  - inversion F as [|? ? C F']; subst. change (k <> 0 /\ an_int k /\ digit y = None) in C. destruct C as (N & I & Y). destruct fuel as [|fuel]; [simpl in L; lia|].
    unfold entered. cbn [map List.concat]. rewrite <- !app_assoc. cbn [app]. fold (entered ks).
    rewrite menu_page; [|apply an_int_in; auto|auto|unfold stops, is_digit; rewrite Y; reflexivity].
    cbn [getchar]. rewrite IH by (auto; simpl in L; lia). reflexivity.
Qed.
