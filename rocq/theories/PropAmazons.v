(** * C93: which amazons problems have solutions *)

From Coq Require Import Ascii String Permutation.
From Verif Require Import Spec Outcome State ModelBuild ModelSearch Observe Cases TextSpec ModelText ModelRead CliSpec ModelCli EncodeSpec ModelEncode
  ModelMenu ModelMain MainSpec MainFacts BenchSpec ModelBench FileCases Amazons.
#[local] Open Scope char_scope.
#[local] Open Scope list_scope.
#[local] Open Scope Z_scope.

(** Amazons in the rows [1 .. n] and columns [0 .. n - 1] that do not attack each other. *)
Definition amazon_placement (n : Z) (a : assignment) : Prop := (forall x, 1 <= x <= n -> 0 <= a x < n) /\ pairwise n a amazons_apart.

Theorem C93_solvable n : 2 <= n -> (exists a, amazon_placement n a) <-> 10 <= n.
Proof.
  intro H. split; [|intro; apply amazons_solvable; lia]. intros (a & G). destruct (Z_lt_ge_dec n 10); [|lia].
  exfalso. apply (few_amazons n a); [lia|exact G].
Qed.
Print Assumptions C93_solvable.

(** The solver on a file of Namazons-generator.hs: for ten or more amazons it never prints UNSAT,
    for fewer it never prints SAT. *)
Theorem C93_run args c m w f n :
  dispatch args = Ok (SolveFinite c m) -> c_file c = Some f -> files_of w f = Some (amazons_file n) -> 0 <= c_clause_size c -> missing_return w = true ->
  2 <= n <= 600 ->
  exists N v rest ds us bs es k r,
    (v = txt "SAT" /\ 10 <= n /\ (exists a ls, amazon_placement n a /\ rest = model_lines (c_log c) ls /\
        if lazy_of c then forall l, In l ls -> lit_holds a l else Permutation ls (lines_of n a)) \/
     v = txt "UNSAT" /\ n < 10 /\ rest = [] \/
     v = txt "TIMEOUT" /\ rest = [] /\ exists i, late_at w (c_time c) i = true) /\
    forall fuel, (N <= fuel)%nat ->
      main fuel args w =
      Ok (mkRan (solver_screen f (time1 w) (time2 w) (time3 w) ((if c_log c then logged w else []) ++ early c m v)
                   (answer_lines v ds us bs es n k r ++ rest)) 0 (files_of w)).
Proof. intros. apply amazons_decided; auto. Qed.
Print Assumptions C93_run.

(** Four amazons: UNSAT; the file benchmarks/Namazons/4amazons.txt. *)
Example C93_case : verdict_of (solve_file 200 NonChrono (nc BK) never 0 (amazons_file 4)) = Some (UNSAT, 7, None).
Proof. vm_compute. reflexivity. Qed.
