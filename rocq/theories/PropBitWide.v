(** * Theorems about the second solver and domains with more than 64 values *)

From Coq Require Import Ascii String.
From Verif Require Import Spec Outcome State ModelBuild ModelSearch Observe Cases TextSpec ModelText ModelRead CliSpec ModelCli Text Read Cli
  ModelGen ModelMenu ModelMain MainSpec MainFacts MainMore Pipe PropMain FileUnique FileCases
  ModelBit BitSpec BitBuild BitSafe BitRuns PropBit ModelBitMain BitMainSpec BitMainFacts PropBitMain BitWide BitWideMain.
#[local] Open Scope Z_scope.

(** ** C76: large domains *)

(** A clause about a variable with more than 64 values cannot be read: an exception of bitset, which
    nobody catches, ends the program. *)
Theorem C76_thrown p fuel cf clk r : wf p -> (exists c l, In c (clauses p) /\ In l c /\ 64 < domsize p (lvar l)) ->
  bsolve fuel cf clk r p = Undef BadBit.
Proof. exact (fun W => solve_wide p W fuel cf clk r). Qed.
Print Assumptions C76_thrown.

(** Otherwise the problem is read without errors. *)
Theorem C76_read p : wf p -> (forall c l, In c (clauses p) -> In l c -> ~ 64 < domsize p (lvar l)) ->
  exists s, bbuild (items_of p) = Ok s.
Proof. exact (fun W => build_narrow p W). Qed.
Print Assumptions C76_read.

Theorem C76_program fuel os w f t p :
  Forall bit_option os -> latest sel_file os None = Some f -> files_of w f = Some t -> 0 <= latest sel_size os 3 ->
  wf p -> fits_int p -> accepted p t -> lines_below 3000 t ->
  (exists c l, In c (clauses p) /\ In l c /\ 64 < domsize p (lvar l)) ->
  bmain fuel (txt "-solvenc" :: args_of os) w = Undef BadBit.
Proof. exact (bmain_wide fuel os w f t p). Qed.
Print Assumptions C76_program.

(** A run that ends has one message for each domain with more than 64 values, and no clause is
    about such a variable. *)
Theorem C76_messages fuel os w f t p r :
  Forall bit_option os -> latest sel_file os None = Some f -> files_of w f = Some t -> 0 <= latest sel_size os 3 ->
  wf p -> fits_int p -> accepted p t -> lines_below 3000 t ->
  bmain fuel (txt "-solvenc" :: args_of os) w = Ok r ->
  (forall c l, In c (clauses p) -> In l c -> ~ 64 < domsize p (lvar l)) /\
  exists rest, screen r = title ++
    unlines (repeat (txt "Error: domain exceeds MAX_DOMAIN") (length (filter (fun d => 64 <? d) (doms p)))) ++ f ++ rest.
Proof. exact (bmain_messages fuel os w f t p r). Qed.
Print Assumptions C76_messages.

(** A variable with more than 64 values that no clause is about: SAT is printed, with an empty set of
    values for this variable, and the check says that the model is correct. *)
Definition p_unused : problem := mkProblem [2; 65; 70] [[veq 1 1]].
Theorem C76_empty_refuted : exists p, wf p /\ lone p /\ satisfiable p /\
  forall vs, exists rep s, bsolve 50 (mkBcfg vs true) never 0 p = Ok (rep, s) /\
    br_verdict rep = SAT /\ br_verified rep = Some true /\ br_model rep = [(0, 0); (1, 2); (2, 0); (3, 0)].
Proof.
  exists p_unused. split; [apply wf_dec; reflexivity|]. split; [apply loneb_ok; reflexivity|].
  split; [exists (fun _ => 1); apply model_dec; reflexivity|].
  assert (G : forall vs, match bsolve 50 (mkBcfg vs true) never 0 p_unused with
    | Ok (rep, s) => br_verdict rep = SAT /\ br_verified rep = Some true /\ br_model rep = [(0, 0); (1, 2); (2, 0); (3, 0)]
    | _ => False end) by (intros []; vm_compute; auto).
  intro vs. specialize (G vs). destruct (bsolve 50 (mkBcfg vs true) never 0 p_unused) as [(rep, s)| |]; [|destruct G..]. eauto.
Qed.
Print Assumptions C76_empty_refuted.

Definition os_f : list opt := [OFile (txt "f")].
Lemma accepted_case p : wf p -> fits_int p -> accepted p (layout p).
Proof. intros _ F. apply readable_accepted, documented_readable; [exact F|apply layout_documented]. Qed.
Definition w_wide (p : problem) : machine := a_machine (two_files (txt "f") (layout p) (txt "g") []) [] [].

Example C76_hypotheses : forall p, p = p_wide \/ p = p_unused ->
  (Forall bit_option os_f /\ latest sel_file os_f None = Some (txt "f") /\ files_of (w_wide p) (txt "f") = Some (layout p) /\
   0 <= latest sel_size os_f 3) /\
  wf p /\ fits_int p /\ accepted p (layout p) /\ lines_below 3000 (layout p).
Proof.
  intros p Hp. split.
  { split; [repeat constructor|]. split; [reflexivity|]. split; [reflexivity|]. vm_compute. discriminate. }
  assert (W : wf p) by (destruct Hp as [->| ->]; apply wf_dec; reflexivity).
  assert (F : fits_int p).
  { destruct Hp as [->| ->]; (split; [vm_compute; discriminate|]); (split; [vm_compute; discriminate|]);
      intros d Hd; cbn in Hd; unfold int_max; intuition lia. }
  split; [exact W|]. split; [exact F|]. split; [apply accepted_case; auto|].
  destruct Hp as [->| ->]; (eapply lines_below_intro; [split; [|left; reflexivity]; apply no_lf_ok; reflexivity|]; apply below_ok; vm_compute; reflexivity).
Qed.
Example C76_wide : exists c l, In c (clauses p_wide) /\ In l c /\ 64 < domsize p_wide (lvar l).
Proof. exists [veq 1 0; veq 2 1], (veq 1 0). split; [left; reflexivity|]. split; [left; reflexivity|]. reflexivity. Qed.
Example C76_screen : exists r, bmain 200 (txt "-solvenc" :: args_of os_f) (w_wide p_unused) = Ok r /\
  screen r = title ++ unlines [txt "Error: domain exceeds MAX_DOMAIN"; txt "Error: domain exceeds MAX_DOMAIN"] ++
    skipn (length title) (solver_screen (txt "f") (txt "0.1") (txt "0.2") (txt "0.3") []
    (answer_lines (txt "SAT") 0 1 0 0 3 1 0 ++
     [txt "The model: "; row64 "0" "0000"; row64 "1" "0010"; row64 "2" "0000"; row64 "3" "0000";
      txt "Verifying model ... model is CORRECT"])).
Proof. eexists. split; [vm_compute; reflexivity|]. vm_compute. reflexivity. Qed.
