(** * Lemmas about the programs that run series of problems *)

From Coq Require Import Ascii String Permutation.
From Verif Require Import Spec Outcome State Observe ModelSearch ModelBuild CliSpec TextSpec ModelText ModelCli Cli ModelEncode Encode ModelMenu ModelMain MainSpec MainFacts
  BenchSpec ModelBench Read Text ModelDrive Bench Bench2 Bench6 BenchRuns Queens DriveSpec.
#[local] Open Scope char_scope.
#[local] Open Scope list_scope.
#[local] Open Scope Z_scope.

(** ** Copying *)

Lemma fgets_app : forall k t, let (l, r) := fgets k t in t = l ++ r.
Proof.
  induction k as [|k IH]; intros [|a t]; cbn [fgets]; auto. destruct (Ascii.eqb a LF); [reflexivity|].
  specialize (IH t). destruct (fgets k t) as (l & r). cbn. congruence.
Qed.
Lemma fgets_some k a t : exists b l, fst (fgets (S k) (a :: t)) = b :: l.
Proof. cbn [fgets]. destruct (Ascii.eqb a LF); [eexists _, _; reflexivity|]. destruct (fgets k t). eexists _, _; reflexivity. Qed.

Definition nn (t : text) : Prop := ~ In NUL t.
Lemma nn_app a b : nn (a ++ b) <-> nn a /\ nn b.
Proof. unfold nn. rewrite in_app_iff. tauto. Qed.
Lemma nn_cons x a : nn (x :: a) <-> x <> NUL /\ nn a.
Proof. unfold nn. cbn. split; [intro H; split; [intros ->; apply H; auto|tauto]|intros (H1 & H2) [H|H]; [congruence|auto]]. Qed.
Lemma nn_nil : nn [].
Proof. intros []. Qed.
Lemma nn_cstr t : nn t -> cstr t = t.
Proof. induction t as [|a t IH]; auto. rewrite nn_cons. intros (H1 & H2). cbn. destruct (Ascii.eqb_spec a NUL); [congruence|]. rewrite IH; auto. Qed.

Lemma copy_all : forall fuel t, (length t < fuel)%nat -> nn t -> copy fuel t = Ok t.
Proof.
  induction fuel as [|f IH]; intros t L H; [lia|]. cbn [copy]. destruct t as [|a t]; auto.
  pose proof (fgets_app 99 (a :: t)) as E. destruct (fgets_some 98 a t) as (b & l' & F). destruct (fgets 99 (a :: t)) as (l & r). cbn [fst] in F. subst l.
  rewrite E in H. apply nn_app in H. destruct H as (H1 & H2). rewrite IH; [|rewrite E, app_length in L; cbn [length] in L; lia|exact H2].
  cbn [bind]. rewrite nn_cstr by auto. congruence.
Qed.
Lemma copy_out_all t : nn t -> copy_out t = Ok t.
Proof. intro H. apply copy_all; auto. Qed.

(** ** The screen of a run *)

Lemma nn_txt_ok t : forallb (fun a => negb (Ascii.eqb a NUL)) t = true -> nn t.
Proof. intros H I. rewrite forallb_forall in H. specialize (H _ I). rewrite Ascii.eqb_refl in H. discriminate. Qed.
Lemma nn_unlines ls : (forall l, In l ls -> nn l) -> nn (unlines ls).
Proof.
  induction ls as [|l ls IH]; intro H; [exact nn_nil|]. rewrite unlines_cons. apply nn_app. split; [apply H; left; auto|].
  apply nn_cons. split; [discriminate|]. apply IH. intros; apply H; right; auto.
Qed.
Lemma nn_num z : nn (num z).
Proof. exact (num_no_nul z). Qed.
Lemma nn_lit l : nn (lit_text l).
Proof. unfold lit_text. destruct (leq l); repeat (rewrite nn_app || rewrite nn_cons); repeat split; try apply nn_num; try discriminate; try (apply nn_txt_ok; reflexivity); apply nn_nil. Qed.
Lemma nn_answer w d u b e n m r l : nn w -> In l (answer_lines w d u b e n m r) -> nn l.
Proof.
  intros W H. unfold answer_lines in H. cbn [In] in H.
  repeat (destruct H as [<-|H]; [first [apply nn_nil|apply nn_cons; split; [discriminate|exact W]|apply nn_app; split; [apply nn_txt_ok; reflexivity|apply nn_num]]|]).
  destruct H.
Qed.
Lemma nn_model v ls l : In l (model_lines v ls) -> nn l.
Proof.
  intros [<-|H]; [apply nn_txt_ok; reflexivity|]. apply in_app_or in H. destruct H as [H|H].
  - apply in_map_iff in H. destruct H as (x & <- & _). apply nn_lit.
  - apply in_app_or in H. destruct H as [H|[<-|[]]]; [|apply nn_txt_ok; reflexivity]. destruct v; [destruct H as [<-|[]]; apply nn_nil|destruct H].
Qed.
Lemma nn_screen f t1 t2 t3 w d u b e n m r rest : nn (f ++ t1 ++ t2 ++ t3) -> nn w -> (rest = [] \/ exists v ls, rest = model_lines v ls) ->
  nn (solver_screen f t1 t2 t3 [] (answer_lines w d u b e n m r ++ rest)).
Proof.
  rewrite !nn_app. intros (A & B & C & D) W R. unfold solver_screen. repeat (rewrite nn_app || rewrite nn_cons). cbn [app].
  split; [apply nn_txt_ok; reflexivity|]. repeat (split; [first [assumption|discriminate|exact nn_nil|apply nn_txt_ok; reflexivity]|]).
  apply nn_unlines. intros l [<-|[<-|H]]; [apply nn_nil|apply nn_nil|]. apply in_app_or in H. destruct H as [H|H]; [apply (nn_answer _ _ _ _ _ _ _ _ _ W H)|].
  destruct R as [->|(v & ls & ->)]; [destruct H|apply (nn_model _ _ _ H)].
Qed.

(** ** The series *)

Lemma write_same fs f t : write_file fs f t f = Some t.
Proof. unfold write_file. destruct (text_eqb_spec f f); congruence. Qed.
Lemma write_other fs f t g : g <> f -> write_file fs f t g = fs g.
Proof. unfold write_file. destruct (text_eqb_spec g f); congruence. Qed.

Lemma drive_ok args dir name file env (Good : Z -> text -> text -> Prop) : (forall m n, name m = name n -> m = n) -> forall ns,
  NoDup ns ->
  (forall n fs, In n ns -> fs (dir ++ name n) = Some (file n) ->
     exists N q, Good n (fst q) (snd q) /\ nn (fst q) /\
       forall fuel, (N <= fuel)%nat -> main fuel (args (dir ++ name n)) (on_files fs (env n)) = Ok (mkRan (fst q) 0 fs)) ->
  forall fs out, exists N fs' qs, Forall2 (fun n q => Good n (fst q) (snd q)) ns qs /\
    (forall fuel, (N <= fuel)%nat -> foldM (drive_step fuel args dir dir name file env) ns (fs, out) = Ok (fs', out ++ List.concat (map fst qs))) /\
    (forall n, In n ns -> fs' (dir ++ name n) = Some (file n)) /\
    (forall g, (forall n, In n ns -> g <> dir ++ name n) -> fs' g = fs g).
Proof.
  intros NI. induction ns as [|n ns IH]; intros ND H fs out.
  - exists O, fs, []. split; [constructor|]. split; [intros; cbn; rewrite app_nil_r; reflexivity|]. split; [intros ? []|auto].
  - inversion ND as [|? ? N1 N2]; subst. set (fs1 := write_file fs (dir ++ name n) (file n)).
    destruct (H n fs1 (or_introl eq_refl) (write_same _ _ _)) as (K & q & G & NN & E).
    destruct (IH N2 (fun m f I => H m f (or_intror I)) fs1 (out ++ fst q)) as (K' & fs' & qs & F & E' & A & B).
    exists (Nat.max K K'), fs', (q :: qs). split; [constructor; auto|]. split; [|split].
    + intros fuel L. cbn [foldM]. unfold drive_step at 1. fold fs1. rewrite E by lia. cbn [bind screen after]. rewrite copy_out_all by auto. cbn [bind].
      rewrite E' by lia. cbn [map List.concat]. rewrite app_assoc. reflexivity.
    + intros m [<-|I]; [|apply A; auto]. rewrite B; [apply write_same|]. intros m I Q. apply app_inv_head in Q. apply NI in Q. subst. contradiction.
    + intros g Q. rewrite B; [apply write_other; apply Q; left; auto|]. intros m I. apply Q. right. auto.
Qed.

Lemma table_ok (Good : Z -> text -> text -> Prop) : forall ns qs, (forall n t r u, In n ns -> Good n t r -> parse_results (t ++ u) = r ++ parse_results u) ->
  Forall2 (fun n q => Good n (fst q) (snd q)) ns qs -> parse_results (List.concat (map fst qs)) = List.concat (map snd qs).
Proof.
  intros ns qs H F. induction F as [|n q ns qs G F IH]; [reflexivity|]. cbn [map List.concat]. rewrite (H n _ _ _ (or_introl eq_refl) G). rewrite IH; auto.
  intros; eapply H; eauto. right; auto.
Qed.

(** ** The two series *)

Lemma queens_args f : exists c, dispatch [txt "-solvenc"; txt "-file"; f] = Ok (SolveFinite c NonChrono) /\ c_file c = Some f /\ c_log c = false /\
  lazy_of c = false /\ 0 <= c_clause_size c /\ c_time c = 3600000 /\ forall v, early c NonChrono v = [].
Proof. eexists. split; [reflexivity|]. cbn. repeat split; try lia; reflexivity. Qed.
Lemma pigeon_args f : exists c, dispatch [txt "-solvenc"; txt "-vsids"; txt "-file"; f] = Ok (SolveFinite c NonChrono) /\ c_file c = Some f /\ c_log c = false /\
  lazy_of c = false /\ 0 <= c_clause_size c /\ c_time c = 3600000 /\ forall v, early c NonChrono v = [].
Proof. eexists. split; [reflexivity|]. cbn. repeat split; try lia; reflexivity. Qed.

Lemma queens_solved f fs w n : In n (loop 43 76) -> fs f = Some (queens_file n) -> missing_return w = true -> nn (f ++ time1 w ++ time2 w ++ time3 w) ->
  exists N q, queens_output f w n (fst q) (snd q) /\ nn (fst q) /\
    forall fuel, (N <= fuel)%nat -> main fuel [txt "-solvenc"; txt "-file"; f] (on_files fs w) = Ok (mkRan (fst q) 0 fs).
Proof.
  intros Hn F M NN. apply in_loop in Hn. destruct (queens_solvable n ltac:(lia)) as (board & B1 & B2).
  destruct (queens_args f) as (c & C1 & C2 & C3 & C4 & C5 & C6 & C7).
  destruct (puzzle_run _ c NonChrono (on_files fs w) f (queens_file n) _ n n _ (queens_describes n ltac:(lia)) (queens_ready n ltac:(lia)) C1 C2 F C5 M)
    as (N & v & rest & ds & us & bs & es & k & r & A & E). rewrite C3, C4, C6, C7 in *.
  destruct A as [(-> & a & ls & A1 & A2 & A3 & A4)|[(_ & _ & A)|(-> & -> & A)]].
  - exists N, (solver_screen f (time1 w) (time2 w) (time3 w) [] (answer_lines (txt "SAT") ds us bs es n k r ++ rest), row [ds; us; bs; es; n; k; r] ++ [LF; NUL; SP]).
    cbn [fst snd]. split; [|split].
    + exists (txt "SAT"), rest, ds, us, bs, es, k, r. split; [reflexivity|]. left. split; [reflexivity|]. split; [reflexivity|]. exists a, ls. auto.
    + apply nn_screen; [exact NN|apply nn_txt_ok; reflexivity|]. right. exists false, ls. exact A3.
    + intros fuel L. exact (E fuel L).
  - exfalso. exact (A board B1 B2).
  - exists N, (solver_screen f (time1 w) (time2 w) (time3 w) [] (answer_lines (txt "TIMEOUT") ds us bs es n k r ++ []), row [ds; us; bs; es; n; k; r]).
    cbn [fst snd]. split; [|split].
    + exists (txt "TIMEOUT"), [], ds, us, bs, es, k, r. split; [reflexivity|]. right. split; [reflexivity|]. split; [reflexivity|]. split; [reflexivity|].
      destruct A as (i & A). exists i. apply Z.ltb_lt in A. exact A.
    + apply nn_screen; [exact NN|apply nn_txt_ok; reflexivity|]. left. reflexivity.
    + intros fuel L. exact (E fuel L).
Qed.

Lemma pigeon_solved f fs w n : In n (loop 4 15) -> fs f = Some (pigeon_file n) -> missing_return w = true -> nn (f ++ time1 w ++ time2 w ++ time3 w) ->
  exists N q, pigeon_output f w n (fst q) (snd q) /\ nn (fst q) /\
    forall fuel, (N <= fuel)%nat -> main fuel [txt "-solvenc"; txt "-vsids"; txt "-file"; f] (on_files fs w) = Ok (mkRan (fst q) 0 fs).
Proof.
  intros Hn F M NN. apply in_loop in Hn.
  destruct (pigeon_args f) as (c & C1 & C2 & C3 & C4 & C5 & C6 & C7).
  destruct (pigeon_run _ c NonChrono (on_files fs w) f n C1 C2 F C5 M ltac:(lia) ltac:(unfold int_max; nia))
    as (N & v & ds & us & bs & es & k & r & A & E). rewrite C3, C6, C7 in *.
  exists N, (solver_screen f (time1 w) (time2 w) (time3 w) [] (answer_lines v ds us bs es n k r), row [ds; us; bs; es; n; k; r]).
  cbn [fst snd]. split; [|split].
  - exists v, ds, us, bs, es, k, r. split; [reflexivity|]. split; [reflexivity|]. destruct A as [A|(A & i & B)]; [left; auto|right]. split; auto. exists i. apply Z.ltb_lt in B. exact B.
  - rewrite <- (app_nil_r (answer_lines _ _ _ _ _ _ _ _)). apply nn_screen; [exact NN| |left; reflexivity]. destruct A as [->|(-> & _)]; apply nn_txt_ok; reflexivity.
  - intros fuel L. exact (E fuel L).
Qed.

Lemma queens_table f w n t r u : calm (f ++ time1 w ++ time2 w ++ time3 w) -> queens_output f w n t r -> parse_results (t ++ u) = r ++ parse_results u.
Proof.
  intros C (v & rest & ds & us & bs & es & k & rs & -> & H).
  assert (C' : calm (f ++ time1 w ++ time2 w ++ time3 w ++ [])) by (rewrite app_nil_r; exact C).
  destruct H as [(-> & -> & a & ls & _ & _ & _ & ->)|(-> & -> & -> & _)]; (rewrite screen_row; [|exact C'|cbn; tauto]).
  - rewrite model_row. rewrite <- app_assoc. reflexivity.
  - reflexivity.
Qed.
Lemma pigeon_table f w n t r u : calm (f ++ time1 w ++ time2 w ++ time3 w) -> pigeon_output f w n t r -> parse_results (t ++ u) = r ++ parse_results u.
Proof.
  intros C (v & ds & us & bs & es & k & rs & -> & -> & H).
  assert (C' : calm (f ++ time1 w ++ time2 w ++ time3 w ++ [])) by (rewrite app_nil_r; exact C).
  rewrite <- (app_nil_r (answer_lines _ _ _ _ _ _ _ _)). rewrite screen_row; [reflexivity|exact C'|]. destruct H as [->|(-> & _)]; cbn; tauto.
Qed.

Lemma series_ok args path name file (Out : text -> machine -> Z -> text -> text -> Prop) ns home env :
  (forall m n, name m = name n -> m = n) -> (forall n, nn (path ++ name n)) -> (forall n, calm (path ++ name n)) -> NoDup ns ->
  (forall f fs w n, In n ns -> fs f = Some (file n) -> missing_return w = true -> nn (f ++ time1 w ++ time2 w ++ time3 w) ->
     exists N q, Out f w n (fst q) (snd q) /\ nn (fst q) /\ forall fuel, (N <= fuel)%nat -> main fuel (args f) (on_files fs w) = Ok (mkRan (fst q) 0 fs)) ->
  (forall f w n t r u, calm (f ++ time1 w ++ time2 w ++ time3 w) -> Out f w n t r -> parse_results (t ++ u) = r ++ parse_results u) ->
  (forall n, In n ns -> missing_return (env n) = true /\ ~ In NUL (home ++ time1 (env n) ++ time2 (env n) ++ time3 (env n))) ->
  forall fs out, exists N fs' qs,
    (forall fuel, (N <= fuel)%nat -> foldM (drive_step fuel args (home ++ path) (home ++ path) name file env) ns (fs, out) = Ok (fs', out ++ List.concat (map fst qs))) /\
    Forall2 (fun n q => Out ((home ++ path) ++ name n) (env n) n (fst q) (snd q)) ns qs /\
    ((forall n, In n ns -> calm (home ++ time1 (env n) ++ time2 (env n) ++ time3 (env n))) -> parse_results (List.concat (map fst qs)) = List.concat (map snd qs)) /\
    (forall n, In n ns -> fs' ((home ++ path) ++ name n) = Some (file n)) /\
    (forall g, (forall n, In n ns -> g <> (home ++ path) ++ name n) -> fs' g = fs g).
Proof.
  intros NI NP CP ND HS HT HE fs out.
  destruct (drive_ok args (home ++ path) name file env (fun n t r => Out ((home ++ path) ++ name n) (env n) n t r) NI ns ND) with (fs := fs) (out := out)
    as (N & fs' & qs & F & E & A & B).
  { intros n fs0 Hn Hf. destruct (HE n Hn) as (M & Q). apply HS; auto. specialize (NP n). change (nn (home ++ time1 (env n) ++ time2 (env n) ++ time3 (env n))) in Q.
    rewrite !nn_app in *. tauto. }
  exists N, fs', qs. split; [exact E|]. split; [exact F|]. split; [|split; [exact A|exact B]].
  intro C. apply (table_ok (fun n t r => Out ((home ++ path) ++ name n) (env n) n t r) ns qs); [|exact F]. intros n t r u Hn G. apply (HT _ _ _ _ _ _) with (2 := G). specialize (C n Hn). specialize (CP n).
  intros x Hx. rewrite !in_app_iff in Hx. destruct Hx as [[[Hx|Hx]|Hx]|Hx].
  - apply C. rewrite !in_app_iff. tauto.
  - apply CP. rewrite in_app_iff. tauto.
  - apply CP. rewrite in_app_iff. tauto.
  - apply C. rewrite !in_app_iff. tauto.
Qed.

Lemma calm_ok t : forallb (fun a => negb (Ascii.eqb a ":") && negb (Ascii.eqb a "T")) t = true -> calm t.
Proof.
  intros H a Ha. rewrite forallb_forall in H. specialize (H _ Ha). apply andb_prop in H. destruct H as (H1 & H2).
  split; intros ->; [discriminate H1|discriminate H2].
Qed.
Lemma calm_app a b : calm a -> calm b -> calm (a ++ b).
Proof. intros A B x H. apply in_app_or in H. destruct H; auto. Qed.

Definition queens_path : text := txt "/netshare/mvl-solver/benchmarks/Nqueens/".
Definition pigeon_path : text := txt "/netshare/mvl-solver/benchmarks/Pigeonhole/".

Lemma queens_series home env : 
  (forall n, In n (loop 43 76) -> missing_return (env n) = true /\ ~ In NUL (home ++ time1 (env n) ++ time2 (env n) ++ time3 (env n))) ->
  forall fs out, exists N fs' qs,
    (forall fuel, (N <= fuel)%nat -> queens_test fuel home (home ++ queens_path) env (fs, out) = Ok (fs', out ++ List.concat (map fst qs))) /\
    Forall2 (fun n q => queens_output ((home ++ queens_path) ++ num n ++ txt "queens") (env n) n (fst q) (snd q)) (loop 43 76) qs /\
    ((forall n, In n (loop 43 76) -> calm (home ++ time1 (env n) ++ time2 (env n) ++ time3 (env n))) -> parse_results (List.concat (map fst qs)) = List.concat (map snd qs)) /\
    (forall n, In n (loop 43 76) -> fs' ((home ++ queens_path) ++ num n ++ txt "queens") = Some (queens_file n)) /\
    (forall g, (forall n, In n (loop 43 76) -> g <> (home ++ queens_path) ++ num n ++ txt "queens") -> fs' g = fs g).
Proof.
  intro H. apply (series_ok (fun f => [txt "-solvenc"; txt "-file"; f]) queens_path (fun n => num n ++ txt "queens") queens_file queens_output).
  - intros m n E. apply app_inv_tail in E. apply num_inj. exact E.
  - intro n. apply nn_app. split; [apply nn_txt_ok; reflexivity|]. apply nn_app. split; [apply nn_num|apply nn_txt_ok; reflexivity].
  - intro n. apply calm_app; [apply calm_ok; reflexivity|]. apply calm_app; [apply num_calm|apply calm_ok; reflexivity].
  - apply loop_nodup.
  - intros. apply queens_solved; auto.
  - intros. eapply queens_table; eauto.
  - exact H.
Qed.

Lemma pigeon_series home env : 
  (forall n, In n (loop 4 15) -> missing_return (env n) = true /\ ~ In NUL (home ++ time1 (env n) ++ time2 (env n) ++ time3 (env n))) ->
  forall fs out, exists N fs' qs,
    (forall fuel, (N <= fuel)%nat -> pigeon_test fuel home (home ++ pigeon_path) env (fs, out) = Ok (fs', out ++ List.concat (map fst qs))) /\
    Forall2 (fun n q => pigeon_output ((home ++ pigeon_path) ++ txt "pgn" ++ num n) (env n) n (fst q) (snd q)) (loop 4 15) qs /\
    ((forall n, In n (loop 4 15) -> calm (home ++ time1 (env n) ++ time2 (env n) ++ time3 (env n))) -> parse_results (List.concat (map fst qs)) = List.concat (map snd qs)) /\
    (forall n, In n (loop 4 15) -> fs' ((home ++ pigeon_path) ++ txt "pgn" ++ num n) = Some (pigeon_file n)) /\
    (forall g, (forall n, In n (loop 4 15) -> g <> (home ++ pigeon_path) ++ txt "pgn" ++ num n) -> fs' g = fs g).
Proof.
  intro H. apply (series_ok (fun f => [txt "-solvenc"; txt "-vsids"; txt "-file"; f]) pigeon_path (fun n => txt "pgn" ++ num n) pigeon_file pigeon_output).
  - intros m n E. apply app_inv_head in E. apply num_inj. exact E.
  - intro n. apply nn_app. split; [apply nn_txt_ok; reflexivity|]. apply nn_app. split; [apply nn_txt_ok; reflexivity|apply nn_num].
  - intro n. apply calm_app; [apply calm_ok; reflexivity|]. apply calm_app; [apply calm_ok; reflexivity|apply num_calm].
  - apply loop_nodup.
  - intros. apply pigeon_solved; auto.
  - intros. eapply pigeon_table; eauto.
  - exact H.
Qed.

(** ** The driver in another folder *)

Definition failed : text := title ++ unlines (error_lines (txt "Could not open input file : ")).
Lemma nn_failed : nn failed.
Proof. apply nn_txt_ok. vm_compute. reflexivity. Qed.

Lemma lost_ok fuel args dir path name file env : forall ns,
  (forall n fs, In n ns -> fs (path ++ name n) = None -> main fuel (args (path ++ name n)) (on_files fs (env n)) = Ok (mkRan failed 1 fs)) ->
  (forall m n, In m ns -> In n ns -> path ++ name m <> dir ++ name n) ->
  forall fs out, (forall n, In n ns -> fs (path ++ name n) = None) ->
  exists fs', foldM (drive_step fuel args dir path name file env) ns (fs, out) = Ok (fs', out ++ List.concat (repeat failed (length ns))).
Proof.
  induction ns as [|n ns IH]; intros H D fs out Z.
  - exists fs. cbn. rewrite app_nil_r. reflexivity.
  - set (fs1 := write_file fs (dir ++ name n) (file n)).
    assert (Z1 : forall m, In m (n :: ns) -> fs1 (path ++ name m) = None).
    { intros m I. unfold fs1. rewrite write_other; [auto|]. apply D; [auto|left; auto]. }
    destruct (IH (fun m f I => H m f (or_intror I)) (fun a b A B => D a b (or_intror A) (or_intror B)) fs1 (out ++ failed) (fun m I => Z1 m (or_intror I))) as (fs' & E).
    exists fs'. cbn [foldM]. unfold drive_step at 1. fold fs1. rewrite (H n fs1 (or_introl eq_refl) (Z1 n (or_introl eq_refl))). cbn [bind screen after].
    rewrite (copy_out_all _ nn_failed). cbn [bind]. etransitivity; [exact E|]. cbn [length repeat List.concat]. rewrite app_assoc. reflexivity.
Qed.

Lemma lost_run fuel args c f fs w : dispatch args = Ok (SolveFinite c NonChrono) -> c_file c = Some f -> fs f = None ->
  main fuel args (on_files fs w) = Ok (mkRan failed 1 fs).
Proof.
  intros D F Z. unfold main. rewrite D. cbn [bind]. unfold run_solver, solve_finite, on_files. cbn [files_of]. rewrite F, Z. reflexivity.
Qed.

Lemma queens_lost fuel home dir env fs out : 
  (forall m n, In m (loop 43 76) -> In n (loop 43 76) -> (home ++ queens_path) ++ num m ++ txt "queens" <> dir ++ num n ++ txt "queens") ->
  (forall n, In n (loop 43 76) -> fs ((home ++ queens_path) ++ num n ++ txt "queens") = None) ->
  exists fs', queens_test fuel home dir env (fs, out) = Ok (fs', out ++ List.concat (repeat failed 33)).
Proof.
  intros D F. apply (lost_ok fuel (fun f => [txt "-solvenc"; txt "-file"; f]) dir (home ++ queens_path) (fun n => num n ++ txt "queens") queens_file env (loop 43 76)); auto.
  intros n fs0 _ E. destruct (queens_args ((home ++ queens_path) ++ num n ++ txt "queens")) as (c & C1 & C2 & _). apply (lost_run _ _ _ _ _ _ C1 C2 E).
Qed.
Lemma pigeon_lost fuel home dir env fs out : 
  (forall m n, In m (loop 4 15) -> In n (loop 4 15) -> (home ++ pigeon_path) ++ txt "pgn" ++ num m <> dir ++ txt "pgn" ++ num n) ->
  (forall n, In n (loop 4 15) -> fs ((home ++ pigeon_path) ++ txt "pgn" ++ num n) = None) ->
  exists fs', pigeon_test fuel home dir env (fs, out) = Ok (fs', out ++ List.concat (repeat failed 11)).
Proof.
  intros D F. apply (lost_ok fuel (fun f => [txt "-solvenc"; txt "-vsids"; txt "-file"; f]) dir (home ++ pigeon_path) (fun n => txt "pgn" ++ num n) pigeon_file env (loop 4 15)); auto.
  intros n fs0 _ E. destruct (pigeon_args ((home ++ pigeon_path) ++ txt "pgn" ++ num n)) as (c & C1 & C2 & _). apply (lost_run _ _ _ _ _ _ C1 C2 E).
Qed.
