(** * Problem files used by the examples *)

From Coq Require Import Ascii String.
From Verif Require Import Spec Outcome State ModelBuild ModelSearch Observe Cases TextSpec ModelText ModelRead Text.
#[local] Open Scope Z_scope.

(** The example of README.md with the format name of its header and a comment. *)
Definition f_readme : text :=
  unlines (map txt ["c an example"; "p mvcnf 3  4"; "d 1 2"; "d 2 3 "; "d 3 5"; "1=1 2!=2 0"; "c"; "  2=1   3=4 1!=0 0 ";
                    "2!=1 0"; "3!=4 0"]%string).
Definition p_readme : problem :=
  mkProblem [2; 3; 5] [[veq 1 1; vne 2 2]; [veq 2 1; veq 3 4; vne 1 0]; [vne 2 1]; [vne 3 4]].

Definition no_lf (ls : list text) : bool := forallb (fun l => forallb (fun a => negb (Ascii.eqb a LF)) l) ls.

Lemma no_lf_ok ls : no_lf ls = true -> forall l, In l ls -> ~ In LF l.
Proof.
  unfold no_lf. rewrite forallb_forall. intros H l Hl Ha. specialize (H l Hl). rewrite forallb_forall in H.
  apply H in Ha. discriminate.
Qed.

Definition below (n : Z) (ls : list text) : bool := forallb (fun l => Z.of_nat (length l) <? n) ls.

(** The lines of a text are determined (see Text.unlines_inj); this form is enough here. *)
Lemma below_ok n ls : below n ls = true -> forall l, In l ls -> Z.of_nat (length l) < n.
Proof. unfold below. rewrite forallb_forall. intros H l Hl. apply Z.ltb_lt. auto. Qed.

(** A comment of 3000 characters between two clauses. *)
Definition long_comment : text := txt "c" ++ repeat SP (Z.to_nat 2999).
Definition f_long : text :=
  unlines [txt "p cnf 1 2"; txt "d 1 2"; txt "1=0 0"; long_comment; txt "1!=0 0"].
Definition p_long : problem := mkProblem [2] [[veq 1 0]; [vne 1 0]].

(** Reading ends, without a message, at the first line of 3000 or more characters. *)
Lemma getlines_stop : forall u cur v, ~ In LF u -> 3000 <= Z.of_nat (length cur + length u) ->
  getlines cur (u ++ v) = [].
Proof.
  induction u as [|a u IH]; intros cur v N L.
  - rewrite Nat.add_0_r in L. simpl app. revert cur L.
    induction v as [|b v IHv]; intros cur L; cbn [getlines].
    + destruct cur as [|b cur]; auto. destruct (Z.leb_spec (Z.of_nat (length (b :: cur))) 2999); auto. cbn [length] in *; lia.
    + destruct (Ascii.eqb b LF).
      * destruct (Z.leb_spec (Z.of_nat (length cur)) 2999); auto. cbn [length] in *; lia.
      * apply IHv. cbn [length] in *; lia.
  - cbn [app getlines]. rewrite (proj2 (Ascii.eqb_neq a LF)) by (intros ->; apply N; left; auto).
    apply IH; [intros H; apply N; right; auto|cbn [length] in *; lia].
Qed.

Lemma long_line_cuts ls u v : (forall l, In l ls -> ~ In LF l) -> (forall l, In l ls -> Z.of_nat (length l) < 3000) ->
  ~ In LF u -> 3000 <= Z.of_nat (length u) -> read_file (unlines ls ++ u ++ v) = read_file (unlines ls).
Proof.
  intros N S Nu Lu. unfold read_file. rewrite getlines_unlines_app by auto. rewrite getlines_stop by (auto; cbn [length]; lia).
  rewrite app_nil_r, getlines_unlines by auto. reflexivity.
Qed.
