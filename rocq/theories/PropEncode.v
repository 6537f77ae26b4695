(** * Theorems about the encoders

    [linear_encode t] and [quadratic_encode t] are the contents of the output files of
    LinearEncode and QuadraticEncode for an input file with the text [t]. *)

From Coq Require Import Ascii String.
From Verif Require Import Spec Outcome State Cases TextSpec ModelText EncodeSpec ModelEncode Text Read Encode Quad Linear EncodeMore
  FileCases EncodeCases EncodeProofs.
#[local] Open Scope Z_scope.

(** The clauses of a file are determined by its text, so the theorems below are about the file. *)
Theorem C29_dimacs_unique t nv nc f nv' nc' f' :
  dimacs nv nc f t -> dimacs nv' nc' f' t -> nv = nv' /\ nc = nc' /\ f = f'.
Proof. apply dimacs_unique. Qed.
Print Assumptions C29_dimacs_unique.

Theorem C31_atom_cnf_unique t nv nc f nv' nc' f' :
  atom_cnf nv nc f t -> atom_cnf nv' nc' f' t -> nv = nv' /\ nc = nc' /\ f = f'.
Proof. apply atom_cnf_unique. Qed.
Print Assumptions C31_atom_cnf_unique.

(** ** C29: the linear encoding *)

(** The written file has a literal for every [v=d]; solutions of the problem and of the written
    clauses correspond in both directions. *)
Theorem C29_models p t : wf p -> clauses p <> [] -> two_valued_positive p ->
  4 * zsum (doms p) + Z.of_nat (length (clauses p)) <= int_max ->
  documented_as (txt "cnf") p t -> lines_below 3000 t ->
  exists t' nv nc f e, linear_encode t = Ok t' /\ dimacs nv nc f t' /\
    (forall a, is_model p a -> exists b, cnf_holds b f /\ corresponds p e b a) /\
    (forall b, cnf_holds b f -> exists a, is_model p a /\ corresponds p e b a).
Proof. intros W NE TV F. apply linear_models; auto. apply (half p W F). Qed.
Print Assumptions C29_models.

Theorem C29_satisfiable p t t' nv nc f : wf p -> clauses p <> [] -> two_valued_positive p ->
  4 * zsum (doms p) + Z.of_nat (length (clauses p)) <= int_max ->
  documented_as (txt "cnf") p t -> lines_below 3000 t ->
  linear_encode t = Ok t' -> dimacs nv nc f t' ->
  (satisfiable p <-> exists b, cnf_holds b f).
Proof. intros W NE TV F. apply linear_satisfiable; auto. apply (half p W F). Qed.
Print Assumptions C29_satisfiable.

Example f_enc_fine : wf p_enc /\ clauses p_enc <> [] /\ two_valued_positive p_enc /\ documented_as (txt "cnf") p_enc f_enc /\
  lines_below 3000 f_enc /\ (forall d, In d (doms p_enc) -> d <= 12).
Proof. exact enc_fine. Qed.
Example C29_case : linear_encode f_enc = Ok (unlines (map txt
  ["p cnf 15 27"; "1 2 3  0"; "-4 1 0"; "4 -1 0"; "-5 4 2 0"; "5 -4 0"; "5 -2 0"; "-4 -2 0"; "-5 -3 0";
   "7 8 9 10  0"; "-11 7 0"; "11 -7 0"; "-12 11 8 0"; "12 -11 0"; "12 -8 0"; "-13 12 9 0"; "13 -12 0"; "13 -9 0";
   "-11 -8 0"; "-12 -9 0"; "-13 -10 0"; "3 -7 6 0"; "-3 0"; "-6 10 0"]%string)).
Proof. vm_compute; reflexivity. Qed.

(** The sign of a literal over a two-valued variable is dropped: a satisfiable problem becomes
    unsatisfiable. *)
Theorem C29_negative_literal_refuted :
  exists p t t' nv nc f, wf p /\ clauses p <> [] /\ documented_as (txt "cnf") p t /\ lines_below 3000 t /\
    linear_encode t = Ok t' /\ dimacs nv nc f t' /\ satisfiable p /\ ~ exists b, cnf_holds b f.
Proof. exact linear_negative. Qed.
Print Assumptions C29_negative_literal_refuted.

(** With the format name of README.md the sizes are read from uninitialised variables. *)
Theorem C29_mvcnf_undefined p t : documented_as (txt "mvcnf") p t -> lines_below 3000 t -> linear_encode t = Undef Uninit.
Proof. apply linear_mvcnf. Qed.
Print Assumptions C29_mvcnf_undefined.

Theorem C29_mvcnf_refuted : exists p t, wf p /\ documented p t /\ lines_below 3000 t /\ linear_encode t = Undef Uninit.
Proof. exact (mvcnf_case linear_encode linear_mvcnf). Qed.
Print Assumptions C29_mvcnf_refuted.

(** ** C30: the header of the linear encoding *)

(** The header counts two variables and four clauses too many for each two-valued variable. *)
Theorem C30_header p t t' nv nc f : wf p -> clauses p <> [] -> two_valued_positive p ->
  4 * zsum (doms p) + Z.of_nat (length (clauses p)) <= int_max ->
  documented_as (txt "cnf") p t -> lines_below 3000 t ->
  linear_encode t = Ok t' -> dimacs nv nc f t' ->
  (forall c z, In c f -> In z c -> 1 <= Z.abs z <= nv - 2 * twos p) /\ nc = Z.of_nat (length f) + 4 * twos p.
Proof. intros W NE TV F. apply linear_header; auto. apply (half p W F). Qed.
Print Assumptions C30_header.

Theorem C30_two_valued_refuted :
  exists p t t' nv nc f, wf p /\ clauses p <> [] /\ two_valued_positive p /\ documented_as (txt "cnf") p t /\ lines_below 3000 t /\
    linear_encode t = Ok t' /\ dimacs nv nc f t' /\ nc <> Z.of_nat (length f).
Proof. exact linear_header_wrong. Qed.
Print Assumptions C30_two_valued_refuted.

(** Without clauses the output file is empty: no header, no domain clauses. *)
Theorem C30_no_clauses p t : wf p -> clauses p = [] -> nvars p < int_max -> 4 * zsum (doms p) <= int_max ->
  documented_as (txt "cnf") p t -> lines_below 3000 t -> linear_encode t = Ok [].
Proof. apply linear_empty. Qed.
Print Assumptions C30_no_clauses.

Example C30_no_clauses_case : documented_as (txt "cnf") (mkProblem [3] []) (layout (mkProblem [3] [])) /\
  linear_encode (layout (mkProblem [3] [])) = Ok [].
Proof. split; [apply layout_documented_as|vm_compute; reflexivity]. Qed.

(** ** C31: the quadratic encoding *)

Theorem C31_models p t : wf p -> clauses p <> [] -> (forall d, In d (doms p) -> d <= 12) ->
  12 * nvars p <= int_max -> 67 * nvars p + Z.of_nat (length (clauses p)) <= int_max ->
  documented_as (txt "cnf") p t -> lines_below 3000 t ->
  exists t' nv nc f, quadratic_encode t = Ok t' /\ atom_cnf nv nc f t' /\
    (forall a, is_model p a -> exists b, atoms_hold b f /\ atoms_correspond p b a) /\
    (forall b, atoms_hold b f -> exists a, is_model p a /\ atoms_correspond p b a).
Proof. apply quadratic_models. Qed.
Print Assumptions C31_models.

Example C31_case : quadratic_encode f_enc = Ok (unlines (map txt
  ["p cnf 9 16"; "1=0 1=1 1=2 "; "-1=0 -1=1"; "-1=0 -1=2"; "-1=1 -1=2"; "2=0 2=1 "; "-2=0 -2=1";
   "3=0 3=1 3=2 3=3 "; "-3=0 -3=1"; "-3=0 -3=2"; "-3=0 -3=3"; "-3=1 -3=2"; "-3=1 -3=3"; "-3=2 -3=3";
   "1=2 -3=0 2=1 0"; "-1=2 0"; "2=0 3=3 0"]%string)).
Proof. vm_compute; reflexivity. Qed.

Theorem C31_mvcnf_undefined p t : documented_as (txt "mvcnf") p t -> lines_below 3000 t -> quadratic_encode t = Undef Uninit.
Proof. apply quadratic_mvcnf. Qed.
Print Assumptions C31_mvcnf_undefined.

Theorem C31_mvcnf_refuted : exists p t, wf p /\ documented p t /\ lines_below 3000 t /\ quadratic_encode t = Undef Uninit.
Proof. exact (mvcnf_case quadratic_encode quadratic_mvcnf). Qed.
Print Assumptions C31_mvcnf_refuted.

(** ** C32: the header of the quadratic encoding *)

(** The numbers of atoms (pairs of a variable and one of its values) and of clauses. *)
Theorem C32_header p t t' nv nc f : wf p -> clauses p <> [] -> (forall d, In d (doms p) -> d <= 12) ->
  12 * nvars p <= int_max -> 67 * nvars p + Z.of_nat (length (clauses p)) <= int_max ->
  documented_as (txt "cnf") p t -> lines_below 3000 t ->
  quadratic_encode t = Ok t' -> atom_cnf nv nc f t' ->
  nv = zsum (doms p) /\ nc = Z.of_nat (length f).
Proof. apply quadratic_header. Qed.
Print Assumptions C32_header.

(** As soon as one domain has 13 values or more the factorial overflows. *)
Theorem C32_overflow p t : wf p -> fits_int p -> (exists d, In d (doms p) /\ 13 <= d) ->
  documented_as (txt "cnf") p t -> lines_below 3000 t -> quadratic_encode t = Undef Overflow.
Proof. apply quadratic_overflow. Qed.
Print Assumptions C32_overflow.

Theorem C32_large_domain_refuted :
  exists p t, wf p /\ fits_int p /\ documented p t /\ lines_below 3000 t /\ quadratic_encode t = Undef Overflow.
Proof. exact overflow_case. Qed.
Print Assumptions C32_large_domain_refuted.

Theorem C32_no_clauses p t : wf p -> clauses p = [] -> (forall d, In d (doms p) -> d <= 12) -> 67 * nvars p <= int_max ->
  documented_as (txt "cnf") p t -> lines_below 3000 t -> quadratic_encode t = Ok [].
Proof. apply quadratic_empty. Qed.
Print Assumptions C32_no_clauses.

(** A negative number of values is an exception. *)
Example C32_negative_case : quadratic_encode (unlines (map txt ["p cnf 2 1"; "d 1 3"; "d 2 -1"; "1=1 0"]%string)) = Undef BadAlloc.
Proof. vm_compute; reflexivity. Qed.

Example C32_no_clauses_case : documented_as (txt "cnf") (mkProblem [3] []) (layout (mkProblem [3] [])) /\
  quadratic_encode (layout (mkProblem [3] [])) = Ok [].
Proof. split; [apply layout_documented_as|vm_compute; reflexivity]. Qed.
