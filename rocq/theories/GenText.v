(** * The files written by the generators *)

From Coq Require Import Ascii String.
From Verif Require Import Spec Outcome State Base ModelBuild ModelSearch TextSpec ModelText ModelRead ModelCli EncodeSpec ModelEncode ModelGen
  Text Read Encode FileUnique Gen GenFin.
#[local] Open Scope char_scope.
#[local] Open Scope Z_scope.

Lemma unlines_concat {A} (f : A -> text) l : List.concat (map (fun x => f x ++ [LF])%list l) = unlines (map f l).
Proof. induction l as [|x l IH]; auto. cbn [map List.concat]. rewrite IH, unlines_cons, <- app_assoc. reflexivity. Qed.

Definition head_row (n m : Z) : text := (txt "p cnf " ++ num n ++ txt " " ++ num m)%list.
Definition gdom_row (q : Z * Z) : text := (txt "d " ++ num (fst q + 1) ++ txt " " ++ num (snd q))%list.
Definition gfin_row (cl : list (Z * Z)) : text := (List.concat (map (fun w => w ++ [SP]) (map lit_text (map gen_lit cl))) ++ txt "0")%list.

Lemma head_row_words n m : words (head_row n m) = [txt "p"; txt "cnf"; num n; num m].
Proof.
  unfold head_row. change (txt "p cnf " ++ num n ++ txt " " ++ num m)%list with (txt "p" ++ SP :: (txt "cnf" ++ SP :: (num n ++ SP :: num m)))%list.
  rewrite words_word by (apply txt_solid; [reflexivity|discriminate]). rewrite words_word by (apply txt_solid; [reflexivity|discriminate]).
  rewrite words_word by apply num_solid. rewrite words_one by apply num_solid. reflexivity.
Qed.

Lemma gdom_row_line v d : domain_line (v + 1) d (gdom_row (v, d)).
Proof.
  split; [eexists; reflexivity|]. unfold gdom_row. cbn [fst snd].
  change (txt "d " ++ num (v + 1) ++ txt " " ++ num d)%list with (txt "d" ++ SP :: (num (v + 1) ++ SP :: num d))%list.
  rewrite words_word by (apply txt_solid; [reflexivity|discriminate]). rewrite words_word by apply num_solid. rewrite words_one by apply num_solid. reflexivity.
Qed.

Lemma gdom_rows_lines : forall ds i, domain_lines (i + 1) ds (map gdom_row (combine (loop i (i + Z.of_nat (length ds))) ds)).
Proof.
  induction ds as [|d ds IH]; intro i; [rewrite loop_empty by (simpl; lia); exact I|].
  rewrite loop_cons by (simpl length; lia). cbn [combine map domain_lines]. split; [apply gdom_row_line|].
  replace (i + Z.of_nat (length (d :: ds))) with (i + 1 + Z.of_nat (length ds)) by (simpl length; lia). apply IH.
Qed.

Lemma gfin_row_line cl : clause_line (map gen_lit cl) (gfin_row cl).
Proof.
  unfold clause_line, gfin_row. rewrite words_row, words_one; [reflexivity|apply txt_solid; [reflexivity|discriminate]|].
  intros w Hw. apply in_map_iff in Hw. destruct Hw as (l & <- & _). apply lit_solid.
Qed.

Lemma gfin_row_text cl : fin_clause_text cl = (gfin_row cl ++ [LF])%list.
Proof.
  unfold fin_clause_text, gfin_row. rewrite <- app_assoc. f_equal. f_equal. rewrite !map_map. apply map_ext. intro l.
  unfold lit_text, gen_lit. cbn [lvar lval leq]. rewrite <- !app_assoc. reflexivity.
Qed.

Definition fin_lines (c : cline) (doms : list Z) (cls : list (list (Z * Z))) : list text :=
  head_row (c_num_var c) (c_num_clause c) :: map gdom_row (combine (loop 0 (c_num_var c)) doms) ++ map gfin_row cls.

Lemma fin_has_lines c doms cls : has_lines (fin_text c doms cls) (fin_lines c doms cls).
Proof.
  split.
  - intros l [<-|Hl].
    + unfold head_row. repeat apply no_lf_app; try apply num_no_lf; simpl; intuition discriminate.
    + apply in_app_or in Hl. destruct Hl as [Hl|Hl]; apply in_map_iff in Hl.
      * destruct Hl as (q & <- & _). unfold gdom_row. repeat apply no_lf_app; try apply num_no_lf; simpl; intuition discriminate.
      * destruct Hl as (cl & <- & _). unfold gfin_row. apply no_lf_app; [|simpl; intuition discriminate]. apply in_row_lf.
        intros w Hw. apply in_map_iff in Hw. destruct Hw as (x & <- & _). apply lit_no_lf.
  - left. unfold fin_text, fin_lines. rewrite unlines_cons, unlines_app.
    assert (E1 : List.concat (map (fun q => txt "d " ++ num (fst q + 1) ++ txt " " ++ num (snd q) ++ [LF])%list (combine (loop 0 (c_num_var c)) doms)) =
      unlines (map gdom_row (combine (loop 0 (c_num_var c)) doms))).
    { rewrite <- unlines_concat. f_equal. apply map_ext. intro q. unfold gdom_row. rewrite <- !app_assoc. reflexivity. }
    assert (E2 : List.concat (map fin_clause_text cls) = unlines (map gfin_row cls)).
    { rewrite <- unlines_concat. f_equal. apply map_ext. intro q. apply gfin_row_text. }
    rewrite E1, E2. unfold head_row. rewrite <- !app_assoc. reflexivity.
Qed.

Lemma fin_documented c ds cls : Z.of_nat (length ds) = c_num_var c -> Z.of_nat (length cls) = c_num_clause c ->
  documented_as (txt "cnf") (gen_problem ds cls) (fin_text c ds cls).
Proof.
  intros L1 L2. exists (fin_lines c ds cls), (head_row (c_num_var c) (c_num_clause c)), (map gdom_row (combine (loop 0 (c_num_var c)) ds)), (map gfin_row cls).
  split; [apply fin_has_lines|]. split; [|split; [|split]].
  - unfold fin_lines. cbn [filter]. change (is_comment (head_row (c_num_var c) (c_num_clause c))) with false. cbn [negb]. f_equal.
    assert (FI : forall ks, (forall l, In l ks -> is_comment l = false) -> filter (fun l => negb (is_comment l)) ks = ks).
    { induction ks as [|k ks IHk]; intro H; auto. cbn [filter]. rewrite (H k (or_introl eq_refl)). cbn [negb]. f_equal. apply IHk. intros; apply H; right; auto. }
    apply FI. intros l Hl. apply in_app_or in Hl. destruct Hl as [Hl|Hl]; apply in_map_iff in Hl.
    + destruct Hl as (q & <- & _). reflexivity.
    + destruct Hl as (cl & <- & _). pose proof (clause_chars _ _ (gfin_row_line cl)) as P. destruct (gfin_row cl) as [|a r]; auto.
      specialize (P a (or_introl eq_refl)). apply clause_char_ok in P. simpl. destruct (Ascii.eqb_spec a "c"); [tauto|auto].
  - split; [eexists; reflexivity|]. assert (E1 : nvars (gen_problem ds cls) = c_num_var c) by exact L1.
    assert (E2 : Z.of_nat (length (clauses (gen_problem ds cls))) = c_num_clause c) by (unfold gen_problem; cbn [clauses]; rewrite map_length; exact L2).
    rewrite E1, E2. apply head_row_words.
  - unfold gen_problem. cbn [doms]. rewrite <- L1. apply (gdom_rows_lines ds 0).
  - unfold gen_problem. cbn [clauses]. clear. induction cls as [|cl cls IH]; constructor; auto. apply gfin_row_line.
Qed.

(** ** The generated problem *)

Lemma gen_domsize ds cls v : 1 <= v -> domsize (gen_problem ds cls) v = at_ ds (v - 1).
Proof. intro H. unfold domsize, gen_problem, at_. cbn [doms]. rewrite (proj2 (Z.leb_le 1 v)) by lia. reflexivity. Qed.

Record generated (c : cline) (p : problem) : Prop := {
  g_vars : nvars p = c_num_var c;
  g_count : Z.of_nat (length (clauses p)) = c_num_clause c;
  g_clauses : forall cl, In cl (clauses p) ->
    Z.of_nat (length cl) = c_clause_size c /\ NoDup (map lvar cl) /\ forall l, In l cl -> wf_lit p l /\ leq l = true;
  g_fixed : c_drand c = false -> forall d, In d (doms p) -> d = c_domain c;
  g_random : c_drand c = true -> forall d, In d (doms p) -> 1 <= d < Z.abs (c_domain c);
  g_sat : c_sat c = true -> 1 <= c_clause_size c -> satisfiable p }.

Lemma in_at l d : In d l -> exists v, 0 <= v < Z.of_nat (length l) /\ at_ l v = d.
Proof.
  intro H. destruct (In_nth l d 0 H) as (n & Hn & E). exists (Z.of_nat n). split; [lia|]. unfold at_. rewrite Nat2Z.id. exact E.
Qed.

Lemma gen_lvar cl : map lvar (map gen_lit cl) = map (fun v => v + 1) (map fst cl).
Proof. rewrite !map_map. reflexivity. Qed.

Lemma fin_generated c ds soln cls : fin_fine c (ds, soln, cls) -> generated c (gen_problem ds cls).
Proof.
  intros (L1 & L2 & D1 & D2 & P1 & P2 & L3 & HC). constructor.
  - exact L1.
  - unfold gen_problem. cbn [clauses]. rewrite map_length. exact L3.
  - intros x Hx. unfold gen_problem in Hx. cbn [clauses] in Hx. apply in_map_iff in Hx. destruct Hx as (cl & <- & Hcl).
    destruct (HC cl Hcl) as (E & N & F & _). split; [rewrite map_length; exact E|]. split.
    + rewrite gen_lvar. apply FinFun.Injective_map_NoDup; [intros a b; lia|exact N].
    + intros l Hl. apply in_map_iff in Hl. destruct Hl as (y & <- & Hy). destruct (F y Hy) as (R1 & R2). split; [|reflexivity].
      unfold wf_lit. cbn [gen_lit lvar lval]. rewrite gen_domsize by lia. replace (fst y + 1 - 1) with (fst y) by lia.
      split; [|exact R2]. unfold nvars, gen_problem. cbn [doms]. lia.
  - intros E d Hd. unfold gen_problem in Hd. cbn [doms] in Hd. rewrite (D1 E) in Hd. apply repeat_spec in Hd. auto.
  - intros E d Hd. unfold gen_problem in Hd. cbn [doms] in Hd. specialize (D2 E d Hd). destruct (in_at ds d Hd) as (v & Hv & Ev).
    specialize (P1 v ltac:(lia)). lia.
  - intros St Sz. exists (fun v => at_ soln (v - 1)). split.
    + intros x Hx. unfold nvars, gen_problem in Hx. cbn [doms] in Hx. rewrite gen_domsize by lia. apply P2. lia.
    + intros x Hx. unfold gen_problem in Hx. cbn [clauses] in Hx. apply in_map_iff in Hx. destruct Hx as (cl & <- & Hcl).
      destruct (HC cl Hcl) as (_ & _ & _ & S). destruct (S St Sz) as (l & Hl & E). exists (gen_lit l). split; [apply in_map; auto|].
      unfold lit_holds. cbn [gen_lit lvar lval leq]. rewrite E. f_equal. lia.
Qed.

Theorem gen_fin_generated c r t : nonneg r -> (c_drand c = false -> 1 <= c_domain c) -> gen_fin c r = Ok t ->
  exists p, documented_as (txt "cnf") p t /\ generated c p.
Proof.
  intros N HD E. rewrite gen_fin_parts in E. destruct ((c_num_var c <? 0) || (c_num_clause c <? 0) || (0 <? c_num_clause c) && (c_clause_size c <? 0)) eqn:A; [discriminate|].
  assert (FA : fin_alloc c) by (unfold fin_alloc; lia).
  destruct (fin_parts c r) as [[[[ds soln] cls] r']| |] eqn:P; try discriminate. cbn [bind] in E. injection E as <-.
  destruct (fin_parts_post c FA HD r _ _ N P) as (F & _). exists (gen_problem ds cls). split; [|apply (fin_generated _ _ _ _ F)].
  destruct F as (L1 & _ & _ & _ & _ & _ & L3 & _). apply fin_documented; auto.
Qed.

(** Generation finishes or can be made to finish. *)
Theorem gen_fin_live c r : nonneg r -> fin_alloc c -> c_drand c = false -> 1 <= c_domain c -> (0 < c_num_clause c -> c_clause_size c <= c_num_var c) ->
  (exists t, gen_fin c r = Ok t) \/ (gen_fin c r = OutOfFuel /\ exists r' t, nonneg r' /\ gen_fin c (r ++ r') = Ok t).
Proof.
  intros N FA HR HD HS. rewrite gen_fin_parts. destruct ((c_num_var c <? 0) || (c_num_clause c <? 0) || (0 <? c_num_clause c) && (c_clause_size c <? 0)) eqn:A.
  { unfold fin_alloc in FA. lia. }
  destruct (fin_parts_live c FA HR HD HS r N) as [([[ds soln] cls] & r1 & E & _)|(E & x & [[ds soln] cls] & r1 & Nx & E1 & _)]; rewrite E; cbn [bind]; [left; eauto|right].
  split; auto. exists x. eexists. split; auto. rewrite gen_fin_parts, A, E1. cbn [bind]. reflexivity.
Qed.

(** With more literals than variables no list of numbers is enough. *)
Theorem gen_fin_stuck c r t : nonneg r -> (c_drand c = false -> 1 <= c_domain c) -> 0 < c_num_clause c -> c_num_var c < c_clause_size c -> gen_fin c r <> Ok t.
Proof.
  intros N HD H1 H2 E. rewrite gen_fin_parts in E. destruct ((c_num_var c <? 0) || (c_num_clause c <? 0) || (0 <? c_num_clause c) && (c_clause_size c <? 0)) eqn:A; [discriminate|].
  assert (FA : fin_alloc c) by (unfold fin_alloc; lia).
  destruct (fin_parts c r) as [[[[ds soln] cls] r']| |] eqn:P; try discriminate.
  destruct (fin_parts_post c FA HD r _ _ N P) as ((L1 & L2 & _ & _ & _ & _ & L3 & HC) & _).
  destruct cls as [|cl cls]; [simpl in L3; lia|]. destruct (HC cl (or_introl eq_refl)) as (E1 & N1 & F1 & _).
  pose proof (no_room c ds soln L2 cl N1 F1 ltac:(unfold fin_alloc in FA; lia)). lia.
Qed.

(** ** Reading back *)

Lemma generated_wf c p : generated c p -> (forall d, In d (doms p) -> 2 <= d) -> 1 <= c_clause_size c -> wf p /\ no_repeats p.
Proof.
  intros [G1 G2 G3 _ _ _] HD HS. split; [split|].
  - exact HD.
  - intros cl Hcl. destruct (G3 cl Hcl) as (L & _ & F). split; [intros ->; simpl in L; lia|]. intros l Hl. apply (F l Hl).
  - intros cl Hcl. destruct (G3 cl Hcl) as (_ & N & _). apply (NoDup_map_inv lvar). exact N.
Qed.

Lemma generated_dom c p : generated c p -> (c_drand c = false -> 1 <= c_domain c) -> Z.abs (c_domain c) <= int_max ->
  forall d, In d (doms p) -> 1 <= d <= int_max.
Proof.
  intros [_ _ _ G4 G5 _] HD HB d Hd. destruct (c_drand c); [specialize (G5 eq_refl d Hd); lia|]. rewrite (G4 eq_refl d Hd). specialize (HD eq_refl). lia.
Qed.

Lemma row_length ws k : (forall w, In w ws -> (length w <= k)%nat) -> (length (List.concat (map (fun w => w ++ [SP]) ws)) <= length ws * (k + 1))%nat.
Proof.
  induction ws as [|w ws IH]; intro H; [simpl; lia|]. cbn [map List.concat length]. rewrite !app_length. pose proof (H w (or_introl eq_refl)).
  specialize (IH (fun x Hx => H x (or_intror Hx))). simpl (length [SP]). nia.
Qed.

Lemma fin_short c ds soln cls : fin_fine c (ds, soln, cls) -> (forall d, In d ds -> 1 <= d <= int_max) -> c_num_var c <= int_max -> c_num_clause c <= int_max ->
  c_clause_size c <= 136 -> lines_below 3000 (fin_text c ds cls).
Proof.
  intros (L1 & L2 & _ & _ & P1 & P2 & L3 & HC) HR H1 H2 H4. eapply lines_below_intro; [apply fin_has_lines|]. intros l [<-|Hl].
  - unfold head_row. rewrite !app_length. pose proof (num_length_int (c_num_var c) ltac:(lia)). pose proof (num_length_int (c_num_clause c) ltac:(lia)).
    simpl (length (txt "p cnf ")). simpl (length (txt " ")). lia.
  - apply in_app_or in Hl. destruct Hl as [Hl|Hl]; apply in_map_iff in Hl.
    + destruct Hl as ([v d] & <- & Hq). unfold gdom_row. cbn [fst snd]. pose proof (in_combine_l _ _ _ _ Hq) as Hv. pose proof (in_combine_r _ _ _ _ Hq) as Hd.
      apply in_loop in Hv. specialize (HR d Hd). rewrite !app_length.
      pose proof (num_length_int (v + 1) ltac:(lia)). pose proof (num_length_int d ltac:(lia)).
      simpl (length (txt "d ")). simpl (length (txt " ")). lia.
    + destruct Hl as (cl & <- & Hcl). destruct (HC cl Hcl) as (E & _ & F & _). unfold gfin_row. rewrite app_length.
      assert (R : (length (List.concat (map (fun w => w ++ [SP])%list (map lit_text (map gen_lit cl)))) <= length (map lit_text (map gen_lit cl)) * (21 + 1))%nat).
      { apply row_length. intros w Hw. apply in_map_iff in Hw. destruct Hw as (x & <- & Hx). apply in_map_iff in Hx. destruct Hx as (y & <- & Hy).
        destruct (F y Hy) as (R1 & R2). specialize (HR _ (at_in ds (fst y) ltac:(lia))).
        unfold lit_text. cbn [gen_lit lvar lval leq]. rewrite !app_length.
        pose proof (num_length_int (fst y + 1) ltac:(lia)). pose proof (num_length_int (snd y) ltac:(lia)). simpl (length (txt "=")). lia. }
      rewrite !map_length in R. simpl (length (txt "0")). lia.
Qed.

Theorem gen_fin_solve c r t : nonneg r -> (c_drand c = false -> 1 <= c_domain c) -> Z.abs (c_domain c) <= int_max ->
  c_num_var c <= int_max -> c_num_clause c <= int_max -> c_clause_size c <= 136 -> gen_fin c r = Ok t ->
  exists p, generated c p /\ fits_int p /\ documented p t /\ lines_below 3000 t /\
    ((forall d, In d (doms p) -> 2 <= d) -> 1 <= c_clause_size c -> wf p /\ no_repeats p /\
      forall fuel m cf clk k, solve_file fuel m cf clk k t = solve fuel m cf clk k p).
Proof.
  intros N HR HD HV HC HS E. rewrite gen_fin_parts in E. destruct ((c_num_var c <? 0) || (c_num_clause c <? 0) || (0 <? c_num_clause c) && (c_clause_size c <? 0)) eqn:A; [discriminate|].
  assert (FA : fin_alloc c) by (unfold fin_alloc; lia).
  destruct (fin_parts c r) as [[[[ds soln] cls] r']| |] eqn:P; try discriminate. cbn [bind] in E. injection E as <-.
  destruct (fin_parts_post c FA HR r _ _ N P) as (F & _). pose proof (fin_generated _ _ _ _ F) as G.
  pose proof (generated_dom c _ G HR HD) as GD.
  assert (FI : fits_int (gen_problem ds cls)).
  { destruct G as [G1 G2 _ _ _ _]. split; [lia|]. split; [lia|]. intros d Hd. apply (GD d Hd). }
  assert (D : documented (gen_problem ds cls) (fin_text c ds cls)) by (left; destruct F as (L1 & _ & _ & _ & _ & _ & L3 & _); apply fin_documented; auto).
  assert (LB : lines_below 3000 (fin_text c ds cls)) by (apply (fin_short c ds soln cls); auto; lia).
  exists (gen_problem ds cls). do 4 (split; [assumption|]). intros H2 H1. destruct (generated_wf c _ G H2 H1) as (W & R). split; [assumption|]. split; [assumption|].
  intros. apply solve_documented; auto.
Qed.
