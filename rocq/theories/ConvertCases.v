(** * Boolean files used by the examples *)

From Coq Require Import Ascii String.
From Verif Require Import Spec Outcome State ModelBuild ModelSearch Observe Cases TextSpec ModelText ModelRead
  EncodeSpec ModelEncode ModelB2f Text Read Encode EncodeMore B2f FileCases.
#[local] Open Scope char_scope.
#[local] Open Scope Z_scope.

Theorem bool_file_unique t n f n' f' : bool_file n f t -> bool_file n' f' t -> n = n' /\ f = f'.
Proof.
  intros (ls & h & cs & L & FL & _ & H & F) (ls' & h' & cs' & L' & FL' & _ & H' & F').
  pose proof (has_lines_unique _ _ _ L L') as <-. rewrite FL in FL'. injection FL' as <- <-.
  rewrite H in H'. injection H' as E1 E2. split; [apply num_inj; auto|].
  apply (rows_unique (fun _ => True) (fun c l => words l = (map num c ++ [txt "0"])%list)) with (cs := cs); auto.
  intros c c' l _ _ R1 R2. rewrite R1 in R2. apply app_inj_tail in R2. destruct R2 as (R2 & _).
  apply (map_inj_in num) in R2; auto. intros; apply num_inj; auto.
Qed.

Lemma join_row_solid c : forall w, In w (map num c ++ [txt "0"])%list -> solid w.
Proof.
  intros w Hw. apply in_app_or in Hw. destruct Hw as [Hw|[<-|[]]]; [|apply txt_solid; [reflexivity|discriminate]].
  apply in_map_iff in Hw. destruct Hw as (z & <- & _). apply num_solid.
Qed.

Lemma join_row_lf c : ~ In LF (join (map num c ++ [txt "0"])).
Proof.
  apply join_no_lf. intros w Hw. apply in_app_or in Hw. destruct Hw as [Hw|[<-|[]]]; [|simpl; intuition discriminate].
  apply in_map_iff in Hw. destruct Hw as (z & <- & _). apply num_no_lf.
Qed.

Theorem bool_layout_file n f : bool_file n f (bool_layout n f).
Proof.
  set (hd := join [txt "p"; txt "cnf"; num n; num (Z.of_nat (length f))]). set (cs := map (fun c => join (map num c ++ [txt "0"])) f).
  assert (HW : forall l, In l cs -> exists c, words l = (map num c ++ [txt "0"])%list).
  { intros l Hl. apply in_map_iff in Hl. destruct Hl as (c & <- & _). exists c. apply words_join. apply join_row_solid. }
  assert (HL : has_lines (bool_layout n f) (hd :: cs)).
  { split; [|left; reflexivity]. intros l [<-|Hl].
    - apply join_no_lf. intros w [<-|[<-|[<-|[<-|[]]]]]; try apply num_no_lf; simpl; intuition discriminate.
    - apply in_map_iff in Hl. destruct Hl as (c & <- & _). apply join_row_lf. }
  exists (hd :: cs), hd, cs. split; [exact HL|]. split; [|split; [|split]].
  - cbn [filter]. change (is_comment hd) with false. cbn [negb]. f_equal. clear -HW. induction cs as [|l cs IH]; auto. cbn [filter].
    destruct (HW l (or_introl eq_refl)) as (c & W). destruct (row_chars c l W) as (_ & a & r & -> & N & _). cbn [is_comment].
    destruct (Ascii.eqb_spec a "c"); [congruence|]. cbn [negb]. f_equal. apply IH. intros; apply HW; right; auto.
  - eexists. reflexivity.
  - apply words_join. intros w [<-|[<-|[<-|[<-|[]]]]]; try apply num_solid; apply txt_solid; try reflexivity; discriminate.
  - unfold cs. clear. induction f as [|c f IH]; constructor; auto. apply words_join. apply join_row_solid.
Qed.

Definition bool_cnfb (n : Z) (f : cnf) : bool :=
  forallb (fun c => negb (match c with [] => true | _ => false end) && forallb (fun z => (1 <=? Z.abs z) && (Z.abs z <=? n)) c) f &&
  forallb (fun v => existsb (fun c => existsb (fun z => Z.abs z =? v) c) f) (loop 1 (n + 1)).

Lemma bool_cnf_dec n f : bool_cnfb n f = true -> bool_cnf n f.
Proof.
  unfold bool_cnfb. rewrite andb_true_iff, !forallb_forall. intros (H1 & H2). split.
  - intros c Hc. specialize (H1 c Hc). apply andb_true_iff in H1. destruct H1 as (N & B). split; [destruct c; [discriminate|congruence]|].
    intros z Hz. rewrite forallb_forall in B. specialize (B z Hz). lia.
  - intros v Hv. assert (Hl : In v (loop 1 (n + 1))) by (apply in_loop; lia). specialize (H2 v Hl).
    apply existsb_exists in H2. destruct H2 as (c & Hc & H2). apply existsb_exists in H2. destruct H2 as (z & Hz & E). apply Z.eqb_eq in E. eauto.
Qed.

(** A small file with comments. *)
Definition f_bool : text := unlines (map txt ["c three variables"; "p cnf 3 3"; "1  -2 0"; "c"; "2 3 0 "; "-3 -1 2 0"]%string).
Definition cnf_bool : cnf := [[1; -2]; [2; 3]; [-3; -1; 2]].

Lemma f_bool_fine : bool_cnf 3 cnf_bool /\ bool_file 3 cnf_bool f_bool /\ lines_below 1500 f_bool.
Proof.
  assert (HL : has_lines f_bool (map txt ["c three variables"; "p cnf 3 3"; "1  -2 0"; "c"; "2 3 0 "; "-3 -1 2 0"]%string)).
  { split; [apply no_lf_ok; reflexivity|left; reflexivity]. }
  split; [apply bool_cnf_dec; reflexivity|]. split.
  - eexists _, (txt "p cnf 3 3"), [_; _; _]. split; [exact HL|]. split; [reflexivity|]. split; [eexists; reflexivity|]. split; [vm_compute; reflexivity|].
    repeat constructor.
  - eapply lines_below_intro; [exact HL|]. apply below_ok. vm_compute. reflexivity.
Qed.

(** A clause of 800 (equal) literals after its negation. *)
Definition cnf_800 : cnf := [[-1]; repeat 1 (Z.to_nat 800)].
Definition f_800 : text := bool_layout 1 cnf_800.
Definition ls_800 : list text :=
  join [txt "p"; txt "cnf"; num 1; num (Z.of_nat (length cnf_800))] :: map (fun c => join (map num c ++ [txt "0"])) cnf_800.
Definition f_800' : text := match boolean2finite f_800 with Ok t' => t' | _ => [] end.

Lemma f_800_fine : lines_below 3000 f_800 /\ boolean2finite f_800 = Ok f_800'.
Proof.
  assert (N : no_lf ls_800 = true) by (vm_compute; reflexivity).
  assert (B : below 3000 ls_800 = true) by (vm_compute; reflexivity).
  split.
  - assert (HL : has_lines f_800 ls_800). { split; [exact (no_lf_ok _ N)|left]. unfold f_800, bool_layout, ls_800. reflexivity. }
    exact (lines_below_intro _ _ _ HL (below_ok _ _ B)).
  - assert (E : match boolean2finite f_800 with Ok _ => true | _ => false end = true) by (vm_compute; reflexivity).
    unfold f_800'. destruct (boolean2finite f_800); [reflexivity|discriminate|discriminate].
Qed.

Lemma cnf_800_unsat b : ~ cnf_holds b cnf_800.
Proof.
  intro H. destruct (H [-1] (or_introl eq_refl)) as (y & [<-|[]] & F).
  destruct (H _ (or_intror (or_introl eq_refl))) as (z & Hz & T). apply repeat_spec in Hz. subst z.
  cbn in F, T. congruence.
Qed.

(** No [0] in the file; a variable that is not used. *)
Definition f_open : text := unlines (map txt ["p cnf 2 1"; "1 2"]%string).
Definition f_gap : text := unlines (map txt ["p cnf 3 2"; "1 3 0"; "-3 0"]%string).
