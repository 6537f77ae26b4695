(** * Converting folders of graphs

    benchmarks/Graph_Coloring/coloring_script.py as a whole (its treatment of one graph file is in
    ModelBench.v) and benchmarks/Graph_Coloring/convert_folders.py.  Not modelled: argparse, the
    encoding of file names, entries that are folders or cannot be opened, signals that end the
    called program, and the way the shell reads a folder name with quotes in it.  No result file
    is one of the graph files. *)

From Coq Require Import Ascii String.
From Verif Require Import Spec Outcome TextSpec ModelText ModelEncode ModelCli ModelBench.
#[local] Open Scope char_scope.
#[local] Open Scope list_scope.
#[local] Open Scope Z_scope.

(** The files of a folder, by name. *)
Definition files := text -> option text.
Definition place (fs : files) (f t : text) : files := fun g => if text_eqb g f then Some t else fs g.

(** str.strip() *)
Fixpoint drop_space (t : text) : text :=
  match t with a :: t' => if py_space a then drop_space t' else t | [] => [] end.
Definition py_strip (t : text) : text := rev (drop_space (rev (drop_space t))).

(** filename.rsplit('.', maxsplit = 1)[0], coloring_script.py:64; [after_dot] gets the name
    backwards. *)
Fixpoint after_dot (r : text) : option text :=
  match r with [] => None | a :: r' => if Ascii.eqb a "." then Some r' else after_dot r' end.
Definition stem (f : text) : text := match after_dot (rev f) with Some r => rev r | None => f end.
Definition result_name (N : Z) (f : text) : text := stem f ++ txt "_N" ++ num N ++ txt ".dimacs".

(** The reports, coloring_script.py:78-103. *)
Definition color_error (s : coloring) (line : text) : text :=
  match line with
  | "p" :: _ => if k_problem s then txt "The second problem line is found" else txt "Incorrect problem line"
  | "e" :: _ => txt "Incorrect edge line"
  | _ => txt "Unknown line type"
  end.
(** The first line with an error, and its report. *)
Fixpoint color_stop (N : Z) (s : coloring) (ls : list text) : option (text * text) :=
  match ls with
  | [] => None
  | l :: ls' => let (s', ok) := color_line N s l in if ok then color_stop N s' ls' else Some (color_error s l, l)
  end.
(** ERROR_REPORT, line 11, and 104-106; line_number is set to 1 at 75 and not changed. *)
Definition error_report (f : text) (e : text * text) : text :=
  fst e ++ txt " in " ++ f ++ [LF] ++ txt "Line number " ++ num 1 ++ txt ":" ++ [LF] ++
  ["034"%char] ++ py_strip (snd e) ++ ["034"%char] ++ [LF].

(** The loop over the files, coloring_script.py:61-117: what is printed, and the result folder.
    After an error exit() ends the program (with status 0), unless -s is given. *)
Fixpoint color_all (N : Z) (skip : bool) (l : list (text * text)) (fs : files) : text * files :=
  match l with
  | [] => ([], fs)
  | (f, t) :: l' =>
      let fs := place fs (result_name N f) (fst (color_file N skip t)) in
      let note := txt "converting " ++ f ++ [LF] in
      match color_stop N (mkColoring false false [] []) (py_lines [] t) with
      | None => let (o, fs) := color_all N skip l' fs in (note ++ o, fs)
      | Some e =>
          if skip then let (o, fs) := color_all N skip l' fs in (note ++ error_report f e ++ o, fs)
          else (note ++ error_report f e, fs)
      end
  end.

(** The program, coloring_script.py:29-117; [dir] is the folder in the order of os.listdir,
    [mask] what fnmatch says of a name. *)
Definition coloring_script (mask : text -> bool) (N : Z) (skip : bool) (dir : list (text * text)) (fs : files)
  : text * files :=
  match filter (fun x => mask (fst x)) dir with
  | [] => (txt "No such file(s)." ++ [LF], fs)
  | l => color_all N skip l fs
  end.

(** fnmatch with the mask *.col, convert_folders.py:22. *)
Definition is_col (f : text) : bool :=
  match rev f with "l" :: "o" :: "c" :: "." :: _ => true | _ => false end.

(** convert_folders.py:17-33, [m] being the file M.in: what the calls print, what the program
    prints (the order of the two on a screen is not modelled), and the folders N3_DIMACS,
    N4_DIMACS, ...  [None]: ValueError.  The status of a call is 0, also after an error. *)
Definition convert_step (dir : list (text * text)) (s : text * text * (Z -> files)) (N : Z) : text * text * (Z -> files) :=
  let '(o, own, fs) := s in
  let (o', fs') := coloring_script is_col N false dir (fs N) in
  (o ++ o', own ++ txt "N=" ++ num N ++ txt " DONE" ++ [LF], fun i => if i =? N then fs' else fs i).
Definition convert_folders (m : text) (dir : list (text * text)) (fs : Z -> files) : option (text * text * (Z -> files)) :=
  match py_int (py_strip m) with
  | Some M => Some (fold_left (convert_step dir) (loop 3 (M + 1)) ([], [], fs))
  | None => None
  end.
