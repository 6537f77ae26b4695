(** * GenBenBool *)

From Coq Require Import Ascii String.
From Verif Require Import Spec Outcome State Base ModelBuild TextSpec ModelText ModelRead ModelCli EncodeSpec ModelEncode ModelGen
  Text Read Encode B2f Gen GenFin GenText.
#[local] Open Scope char_scope.
#[local] Open Scope Z_scope.

Section Clause.
Variable c : cline.
Variable soln : list Z.
Hypothesis Ls : Z.of_nat (length soln) = c_num_var c.
Hypothesis Ps : forall z, In z soln -> 1 <= Z.abs z <= c_num_var c.

Definition bc_inv (x : Z) (bs : list Z) : Prop :=
  Z.of_nat (length bs) = x /\ NoDup bs /\ forall z, In z bs -> 1 <= Z.abs z <= c_num_var c.

Lemma bc_inv_add x bs z : bc_inv x bs -> 1 <= Z.abs z <= c_num_var c -> ~ In z bs -> bc_inv (x + 1) (bs ++ [z]).
Proof.
  intros (L & N & F) Hz Nz. split; [rewrite app_length; simpl; lia|]. split; [apply nodup_add; auto|].
  intros y Hy. apply in_app_or in Hy. destruct Hy as [Hy|[<-|[]]]; auto.
Qed.

Lemma bool_lit_frame bs x : frame (bool_lit c soln bs x).
Proof.
  unfold bool_lit. apply (seqr_frame (rand_mod 2) (fun b r => let* q := rand_mod (c_num_var c) r in let (i, r) := q in
    if c_sat c && (x =? 0) then let* v := read_at soln i in Ok (if b =? 0 then - v else v, r)
    else redraw (c_num_var c) 1 bs (if b =? 0 then - (i + 1) else i + 1) r)); [apply rand_frame|]. intro b.
  apply (seqr_frame (rand_mod (c_num_var c)) (fun i r =>
    if c_sat c && (x =? 0) then let* v := read_at soln i in Ok (if b =? 0 then - v else v, r)
    else redraw (c_num_var c) 1 bs (if b =? 0 then - (i + 1) else i + 1) r)); [apply rand_frame|]. intro i.
  destruct (c_sat c && (x =? 0)); [|apply redraw_frame].
  destruct (read_at soln i); cbn [bind]; [apply ret_frame| |]; intros r y r' z E; discriminate.
Qed.

Lemma bool_lit_post bs x : 0 <= x -> bc_inv x bs -> post (bool_lit c soln bs x) (fun z => bc_inv (x + 1) (bs ++ [z])).
Proof.
  intros Hx I. unfold bool_lit.
  apply (seqr_post (rand_mod 2) (fun b r => let* q := rand_mod (c_num_var c) r in let (i, r) := q in
    if c_sat c && (x =? 0) then let* v := read_at soln i in Ok (if b =? 0 then - v else v, r)
    else redraw (c_num_var c) 1 bs (if b =? 0 then - (i + 1) else i + 1) r) (fun _ => True)); [eapply post_weak; [apply rand_post_any|auto]|]. intros b _.
  apply (seqr_post (rand_mod (c_num_var c)) (fun i r =>
    if c_sat c && (x =? 0) then let* v := read_at soln i in Ok (if b =? 0 then - v else v, r)
    else redraw (c_num_var c) 1 bs (if b =? 0 then - (i + 1) else i + 1) r) (fun i => 0 <= i < c_num_var c)).
  { eapply post_weak; [apply rand_post_any|]. intros v (_ & Hv). lia. }
  intros i Hi. destruct (c_sat c && (x =? 0)) eqn:B.
  - rewrite read_at_z by lia. cbn [bind]. apply ret_post. pose proof (Ps _ (at_in soln i ltac:(lia))).
    apply bc_inv_add; auto; [destruct (b =? 0); lia|]. apply andb_true_iff in B. destruct B as (_ & E0). apply Z.eqb_eq in E0.
    destruct I as (L & _). destruct bs; [intros []|simpl in L; lia].
  - intros r z r' N E. eapply (redraw_post _ 1 _ (fun w => 1 <= Z.abs w <= c_num_var c)) in E; eauto.
    + destruct E as ((P & F) & N'). split; auto. apply bc_inv_add; auto.
    + intros _ k Hk. lia.
    + destruct (b =? 0); lia.
Qed.

Lemma bool_lit_live bs x : 0 <= x < c_num_var c -> bc_inv x bs -> live (bool_lit c soln bs x) (fun z => bc_inv (x + 1) (bs ++ [z])).
Proof.
  intros Hx I. unfold bool_lit.
  assert (FL : forall b i, frame (fun r => if c_sat c && (x =? 0) then let* v := read_at soln i in Ok (if b =? 0 then - v else v, r)
    else redraw (c_num_var c) 1 bs (if b =? 0 then - (i + 1) else i + 1) r)).
  { intros b i. destruct (c_sat c && (x =? 0)); [|apply redraw_frame].
    destruct (read_at soln i); cbn [bind]; [apply ret_frame| |]; intros r y r' z E; discriminate. }
  apply (seqr_live (rand_mod 2) (fun b r => let* q := rand_mod (c_num_var c) r in let (i, r) := q in
    if c_sat c && (x =? 0) then let* v := read_at soln i in Ok (if b =? 0 then - v else v, r)
    else redraw (c_num_var c) 1 bs (if b =? 0 then - (i + 1) else i + 1) r) (fun _ => True)); [apply rand_frame|eapply live_weak; [apply rand_live; lia|auto]| |].
  { intro b. apply (seqr_frame (rand_mod (c_num_var c)) (fun i r =>
    if c_sat c && (x =? 0) then let* v := read_at soln i in Ok (if b =? 0 then - v else v, r)
    else redraw (c_num_var c) 1 bs (if b =? 0 then - (i + 1) else i + 1) r)); [apply rand_frame|auto]. }
  intros b _. apply (seqr_live (rand_mod (c_num_var c)) (fun i r =>
    if c_sat c && (x =? 0) then let* v := read_at soln i in Ok (if b =? 0 then - v else v, r)
    else redraw (c_num_var c) 1 bs (if b =? 0 then - (i + 1) else i + 1) r) (fun i => 0 <= i < c_num_var c)); [apply rand_frame| |auto|].
  { eapply live_weak; [apply rand_live; lia|]. intros v Hv. cbn beta in Hv. lia. }
  intros i Hi. destruct (c_sat c && (x =? 0)) eqn:B.
  - rewrite read_at_z by lia. cbn [bind]. apply ret_live. pose proof (Ps _ (at_in soln i ltac:(lia))).
    apply bc_inv_add; auto; [destruct (b =? 0); lia|]. apply andb_true_iff in B. destruct B as (_ & E0). apply Z.eqb_eq in E0.
    destruct I as (L & _). destruct bs; [intros []|simpl in L; lia].
  - eapply live_weak; [apply (redraw_live _ 1 _ (fun w => 1 <= Z.abs w <= c_num_var c))|].
    + intros k Hk. lia.
    + destruct I as (L & _). lia.
    + destruct (b =? 0); lia.
    + intros z (P & F). apply bc_inv_add; auto.
Qed.

Lemma bc_inv_nil : bc_inv 0 [].
Proof. split; auto. split; [constructor|intros z []]. Qed.

Lemma bool_clause_post : 0 <= c_clause_size c -> post (bool_clause c soln) (bc_inv (c_clause_size c)).
Proof.
  intro H. unfold bool_clause. apply (after_post (bool_lit c soln) bc_inv (c_clause_size c) (Z.to_nat (c_clause_size c))); [lia| |apply bc_inv_nil].
  intros x bs Hx I. apply bool_lit_post; auto. lia.
Qed.
Lemma bool_clause_frame : frame (bool_clause c soln).
Proof. apply after_frame. intros. apply bool_lit_frame. Qed.
Lemma bool_clause_live : 0 <= c_clause_size c <= c_num_var c -> live (bool_clause c soln) (bc_inv (c_clause_size c)).
Proof.
  intro H. unfold bool_clause. apply (after_live (bool_lit c soln) bc_inv (c_clause_size c)) with (k := Z.to_nat (c_clause_size c)); [intros; apply bool_lit_frame|lia| |apply bc_inv_nil].
  intros x bs Hx I. apply bool_lit_live; auto. lia.
Qed.
End Clause.

Definition bool_fine (c : cline) (cls : list (list Z)) : Prop :=
  Z.of_nat (length cls) = c_num_clause c /\ forall cl, In cl cls -> bc_inv c (c_clause_size c) cl.

Definition bool_parts (c : cline) : rnd -> outcome (list (list Z) * rnd) :=
  seqr (draws bool_value (loop 1 (c_num_var c + 1))) (fun soln => draws (fun _ => bool_clause c soln) (loop 0 (c_num_clause c))).

Lemma gen_bool_parts c r : -1 <= c_num_var c < int_max -> 0 <= c_num_clause c -> (0 < c_num_clause c -> 0 <= c_clause_size c) ->
  gen_bool c r = let* q := bool_parts c r in let (cls, _) := q in Ok (bool_text c cls).
Proof.
  intros H1 H2 H3. unfold gen_bool, bool_parts, seqr. rewrite i32_ok by (unfold int_max in *; lia). cbn [bind]. unfold new_array.
  destruct (Z.ltb_spec (c_num_var c + 1) 0); [lia|]. cbn [bind]. destruct (Z.ltb_spec (c_num_clause c) 0); [lia|]. cbn [bind].
  destruct (Z.ltb_spec 0 (c_num_clause c)); [destruct (Z.ltb_spec (c_clause_size c) 0); [lia|]|]; cbn [bind].
  - destruct (draws bool_value _ r) as [[soln r1]| |]; auto.
  - destruct (draws bool_value _ r) as [[soln r1]| |]; auto.
Qed.

Lemma gen_bool_ok c r t : gen_bool c r = Ok t -> -2147483648 <= c_num_var c -> -1 <= c_num_var c < int_max /\ 0 <= c_num_clause c /\ (0 < c_num_clause c -> 0 <= c_clause_size c).
Proof.
  unfold gen_bool, i32, new_array, in_int. intros E H. destruct ((-2147483648 <=? c_num_var c + 1) && (c_num_var c + 1 <=? 2147483647)) eqn:A; [|discriminate]. cbn [bind] in E.
  destruct (Z.ltb_spec (c_num_var c + 1) 0); [discriminate|]. cbn [bind] in E. destruct (Z.ltb_spec (c_num_clause c) 0); [discriminate|]. cbn [bind] in E.
  unfold int_max. split; [lia|]. split; [lia|]. intro Hc. rewrite (proj2 (Z.ltb_lt 0 (c_num_clause c)) Hc) in E.
  destruct (Z.ltb_spec (c_clause_size c) 0); [discriminate|lia].
Qed.

Lemma bool_value_post x : 1 <= x -> post (bool_value x) (fun z => Z.abs z = x).
Proof.
  intro H. unfold bool_value. apply (seqr_post (rand_mod 2) (fun b r => Ok (if b =? 0 then - x else x, r)) (fun _ => True)); [eapply post_weak; [apply rand_post_any|auto]|].
  intros b _. apply ret_post. destruct (b =? 0); lia.
Qed.
Lemma bool_value_frame x : frame (bool_value x).
Proof. apply (seqr_frame (rand_mod 2) (fun b r => Ok (if b =? 0 then - x else x, r))); [apply rand_frame|intro; apply ret_frame]. Qed.
Lemma bool_value_live x : 1 <= x -> live (bool_value x) (fun z => Z.abs z = x).
Proof.
  intro H. apply (seqr_live (rand_mod 2) (fun b r => Ok (if b =? 0 then - x else x, r)) (fun _ => True)); [apply rand_frame|eapply live_weak; [apply rand_live; lia|auto]|intro; apply ret_frame|].
  intros b _. apply ret_live. destruct (b =? 0); lia.
Qed.

Lemma bool_parts_post c : 0 <= c_num_var c -> 0 <= c_num_clause c -> (0 < c_num_clause c -> 0 <= c_clause_size c) -> post (bool_parts c) (bool_fine c).
Proof.
  intros H1 H2 H3. apply (seqr_post _ _ (Forall2 (fun x z => Z.abs z = x) (loop 1 (c_num_var c + 1)))).
  - apply draws_post. intros x Hx. apply in_loop in Hx. apply bool_value_post. lia.
  - intros soln F. pose proof (forall2_len _ _ _ F) as L. rewrite loop_length in L.
    eapply post_weak; [apply (draws_post _ (fun _ cl => bc_inv c (c_clause_size c) cl))|].
    + intros x Hx. apply in_loop in Hx. apply bool_clause_post; [lia| |lia]. intros z Hz.
      destruct (forall2_right _ _ _ F z Hz) as (y & Hy & E). apply in_loop in Hy. lia.
    + intros cls FC. pose proof (forall2_len _ _ _ FC) as L3. rewrite loop_length in L3. split; [lia|].
      intros cl Hcl. destruct (forall2_right _ _ _ FC cl Hcl) as (x & _ & K). exact K.
Qed.

Lemma bool_parts_live c : 0 <= c_num_var c -> 0 <= c_num_clause c -> (0 < c_num_clause c -> 0 <= c_clause_size c <= c_num_var c) -> live (bool_parts c) (fun _ => True).
Proof.
  intros H1 H2 H3. apply (seqr_live _ _ (Forall2 (fun x z => Z.abs z = x) (loop 1 (c_num_var c + 1)))).
  - apply draws_frame. intros; apply bool_value_frame.
  - apply draws_live; [intros; apply bool_value_frame|]. intros x Hx. apply in_loop in Hx. apply bool_value_live. lia.
  - intro soln. apply draws_frame. intros; apply bool_clause_frame.
  - intros soln F. pose proof (forall2_len _ _ _ F) as L. rewrite loop_length in L.
    eapply live_weak; [apply (draws_live _ (fun _ cl => bc_inv c (c_clause_size c) cl)); [intros; apply bool_clause_frame|]|auto].
    intros x Hx. apply in_loop in Hx. apply bool_clause_live; [lia| |lia]. intros z Hz.
    destruct (forall2_right _ _ _ F z Hz) as (y & Hy & E). apply in_loop in Hy. lia.
Qed.

(** ** The file *)

Definition gbool_row (cl : list Z) : text := (List.concat (map (fun w => w ++ [SP]) (map num cl)) ++ txt "0")%list.

Lemma gbool_row_words cl : words (gbool_row cl) = (map num cl ++ [txt "0"])%list.
Proof.
  unfold gbool_row. rewrite words_row, words_one; [reflexivity|apply txt_solid; [reflexivity|discriminate]|].
  intros w Hw. apply in_map_iff in Hw. destruct Hw as (l & <- & _). apply num_solid.
Qed.

Lemma bool_has_lines c cls : has_lines (bool_text c cls) (head_row (c_num_var c) (c_num_clause c) :: map gbool_row cls).
Proof.
  split.
  - intros l [<-|Hl].
    + unfold head_row. repeat apply no_lf_app; try apply num_no_lf; simpl; intuition discriminate.
    + apply in_map_iff in Hl. destruct Hl as (cl & <- & _). unfold gbool_row. apply no_lf_app; [|simpl; intuition discriminate]. apply in_row_lf.
      intros w Hw. apply in_map_iff in Hw. destruct Hw as (x & <- & _). apply num_no_lf.
  - left. unfold bool_text. rewrite unlines_cons.
    assert (E2 : List.concat (map bool_clause_text cls) = unlines (map gbool_row cls)).
    { rewrite <- unlines_concat. f_equal. apply map_ext. intro q. unfold bool_clause_text, gbool_row. rewrite <- app_assoc. f_equal. rewrite map_map. reflexivity. }
    rewrite E2. unfold head_row. rewrite <- !app_assoc. reflexivity.
Qed.

Lemma bool_written c cls : Z.of_nat (length cls) = c_num_clause c ->
  dimacs (c_num_var c) (c_num_clause c) cls (bool_text c cls) /\ bool_file (c_num_var c) cls (bool_text c cls).
Proof.
  intro L. pose proof (bool_has_lines c cls) as HL.
  assert (F : Forall2 (fun c l => words l = map num c ++ [txt "0"])%list cls (map gbool_row cls)).
  { clear. induction cls as [|cl cls IH]; constructor; auto. apply gbool_row_words. }
  split.
  - eexists _, _. split; [exact HL|]. split; [apply head_row_words|exact F].
  - eexists _, _, _. split; [exact HL|]. split; [|split; [eexists; reflexivity|split; [rewrite L; apply head_row_words|exact F]]].
    cbn [filter]. change (is_comment (head_row (c_num_var c) (c_num_clause c))) with false. cbn [negb]. f_equal.
    clear. induction cls as [|cl cls IH]; auto. cbn [map filter]. destruct (row_chars cl _ (gbool_row_words cl)) as (_ & a & r & -> & N & _). cbn [is_comment].
    destruct (Ascii.eqb_spec a "c"); [congruence|]. cbn [negb]. f_equal. exact IH.
Qed.

Theorem gen_bool_shape c r t : nonneg r -> 0 <= c_num_var c -> gen_bool c r = Ok t ->
  exists f, dimacs (c_num_var c) (c_num_clause c) f t /\ bool_file (c_num_var c) f t /\ Z.of_nat (length f) = c_num_clause c /\
    forall cl, In cl f -> Z.of_nat (length cl) = c_clause_size c /\ NoDup cl /\ forall z, In z cl -> 1 <= Z.abs z <= c_num_var c.
Proof.
  intros N H E. destruct (gen_bool_ok c r t E ltac:(lia)) as (H1 & H2 & H3). rewrite gen_bool_parts in E by auto.
  destruct (bool_parts c r) as [[cls r']| |] eqn:P; try discriminate. cbn [bind] in E. injection E as <-.
  destruct (bool_parts_post c H H2 H3 r _ _ N P) as ((L & F) & _). destruct (bool_written c cls L). exists cls. auto.
Qed.

Theorem gen_bool_live c r : nonneg r -> 0 <= c_num_var c < int_max -> 0 <= c_num_clause c -> (0 < c_num_clause c -> 0 <= c_clause_size c <= c_num_var c) ->
  (exists t, gen_bool c r = Ok t) \/ (gen_bool c r = OutOfFuel /\ exists r' t, nonneg r' /\ gen_bool c (r ++ r') = Ok t).
Proof.
  intros N H1 H2 H3. rewrite gen_bool_parts by lia.
  destruct (bool_parts_live c ltac:(lia) H2 H3 r N) as [(cls & r1 & E & _)|(E & x & cls & r1 & Nx & E1 & _)]; rewrite E; cbn [bind]; [left; eauto|right].
  split; auto. exists x. eexists. split; auto. rewrite gen_bool_parts, E1 by lia. cbn [bind]. reflexivity.
Qed.

Theorem gen_bool_stuck c r t : nonneg r -> 0 <= c_num_var c -> 0 < c_num_clause c -> 2 * c_num_var c < c_clause_size c -> gen_bool c r <> Ok t.
Proof.
  intros N H HC HS E. destruct (gen_bool_shape c r t N H E) as (f & _ & _ & L & F). destruct f as [|cl f]; [simpl in L; lia|].
  destruct (F cl (or_introl eq_refl)) as (L1 & N1 & R). 
  assert (I : incl cl (loop 1 (c_num_var c + 1) ++ map Z.opp (loop 1 (c_num_var c + 1)))).
  { intros z Hz. specialize (R z Hz). apply in_or_app. destruct (Z.lt_ge_cases 0 z); [left; apply in_loop; lia|right]. apply in_map_iff. exists (- z). split; [lia|apply in_loop; lia]. }
  apply NoDup_incl_length in I; auto. rewrite app_length, map_length, loop_length in I. lia.
Qed.
