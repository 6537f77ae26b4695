(** * Facts shared by the two encoders *)

From Coq Require Import Ascii String.
From Verif Require Import Spec Outcome State Base TextSpec ModelText EncodeSpec ModelEncode Text Read.
#[local] Open Scope char_scope.
#[local] Open Scope Z_scope.

Lemma fold_comments {S} (f : S -> text -> outcome S) :
  (forall s l, f s ("c" :: l) = Ok s) ->
  forall ls s, foldM f ls s = foldM f (filter (fun l => negb (is_comment l)) ls) s.
Proof.
  intros H. induction ls as [|l ls IH]; intro s; auto. cbn [filter]. destruct l as [|a l].
  - cbn [is_comment negb foldM]. destruct (f s []) as [s'| |]; auto. cbn [bind]. apply IH.
  - cbn [is_comment]. destruct (Ascii.eqb_spec a "c") as [->|N]; cbn [negb].
    + cbn [foldM]. rewrite H. cbn [bind]. apply IH.
    + cbn [foldM]. destruct (f s (a :: l)) as [s'| |]; auto. cbn [bind]. apply IH.
Qed.

Lemma i32_ok z : -2147483648 <= z <= int_max -> i32 z = Ok z.
Proof. intro H. unfold i32, in_int, int_max in *. destruct (_ && _) eqn:E; auto. lia. Qed.

(** ** Rows *)

Lemma words_prefix : forall u w t, (forall a, In a u -> blank a = false) -> words_from w (u ++ t) = words_from (w ++ u) t.
Proof.
  induction u as [|a u IH]; intros w t H; simpl; [rewrite app_nil_r; auto|]. rewrite (H a) by (left; auto).
  rewrite IH by (intros; apply H; right; auto). rewrite <- app_assoc. reflexivity.
Qed.

Lemma words_word w r : solid w -> words (w ++ SP :: r) = w :: words r.
Proof.
  intros (N & B). unfold words. rewrite words_prefix by auto. cbn [words_from app]. change (blank SP) with true. cbn iota.
  destruct w; [congruence|reflexivity].
Qed.

Lemma words_one w : solid w -> words w = [w].
Proof.
  intros (N & B). unfold words. rewrite <- (app_nil_r w) at 1. rewrite words_prefix by auto. simpl.
  destruct w; [congruence|reflexivity].
Qed.

Lemma words_blank a r : blank a = true -> words (a :: r) = words r.
Proof. intro H. unfold words. simpl. rewrite H. reflexivity. Qed.

Lemma words_row ws r : (forall w, In w ws -> solid w) ->
  words (List.concat (map (fun w => w ++ [SP]) ws) ++ r) = (ws ++ words r)%list.
Proof.
  induction ws as [|w ws IH]; intro H; auto. simpl map. cbn [List.concat].
  rewrite <- !app_assoc. simpl app. rewrite words_word by (apply H; left; auto). f_equal. apply IH. intros; apply H; right; auto.
Qed.

Lemma in_row_lf ws : (forall w, In w ws -> ~ In LF w) -> ~ In LF (List.concat (map (fun w => w ++ [SP]) ws)).
Proof.
  intros H Hin. apply in_concat in Hin. destruct Hin as (x & Hx & Hl). apply in_map_iff in Hx.
  destruct Hx as (w & <- & Hw). apply in_app_or in Hl. destruct Hl as [Hl|[Hl|[]]]; [exact (H w Hw Hl)|discriminate].
Qed.

Lemma no_lf_app a b : ~ In LF a -> ~ In LF b -> ~ In LF (a ++ b).
Proof. intros Ha Hb H. apply in_app_or in H. tauto. Qed.

(** ** Loops *)

Lemma in_loop i j k : In k (loop i j) <-> i <= k < j.
Proof.
  unfold loop. rewrite in_map_iff. split.
  - intros (n & <- & H). apply in_seq in H. lia.
  - intro H. exists (Z.to_nat (k - i)). split; [lia|]. apply in_seq. lia.
Qed.

Lemma loop_empty i j : j <= i -> loop i j = [].
Proof. intro H. unfold loop. replace (Z.to_nat (j - i)) with 0%nat by lia. reflexivity. Qed.

Lemma loop_cons i j : i < j -> loop i j = i :: loop (i + 1) j.
Proof.
  intro H. unfold loop. replace (Z.to_nat (j - i)) with (S (Z.to_nat (j - (i + 1)))) by lia.
  simpl. f_equal; [lia|]. rewrite <- seq_shift, map_map. apply map_ext. intro; lia.
Qed.

Lemma loop_length i j : length (loop i j) = Z.to_nat (j - i).
Proof. unfold loop. rewrite map_length, seq_length. reflexivity. Qed.

Lemma loop_snoc i j : i <= j -> loop i (j + 1) = loop i j ++ [j].
Proof.
  intro H. unfold loop. replace (Z.to_nat (j + 1 - i)) with (Z.to_nat (j - i) + 1)%nat by lia.
  rewrite seq_app, map_app. simpl. do 2 f_equal. lia.
Qed.

Lemma zsum_app a b : zsum (a ++ b) = zsum a + zsum b.
Proof. induction a as [|x a IH]; simpl; [reflexivity|]. unfold zsum in *. simpl. rewrite IH. lia. Qed.

Lemma zsum_nonneg l : (forall x, In x l -> 0 <= x) -> 0 <= zsum l.
Proof. induction l as [|x l IH]; intro H; simpl; [lia|]. pose proof (H x (or_introl eq_refl)). assert (0 <= zsum l) by (apply IH; intros; apply H; right; auto). unfold zsum in *. simpl. lia. Qed.

(** ** Literals of a well-formed problem *)

Lemma lit_ints p l : wf p -> nvars p <= int_max -> (forall d, In d (doms p) -> d <= int_max) -> wf_lit p l ->
  int_ok (lvar l) /\ lvar l <> 0 /\ int_ok (lval l).
Proof.
  intros W F1 F2 (A & B). unfold int_ok.
  assert (D : domsize p (lvar l) <= int_max).
  { unfold domsize. destruct (Z.leb_spec 1 (lvar l)); [|unfold int_max; lia].
    apply F2. apply nth_In. unfold nvars in A. lia. }
  lia.
Qed.

Lemma clause_line_chars c l : clause_line c l -> ~ In NUL l /\
  exists a r, l = a :: r /\ a <> "c" /\ a <> "p" /\ a <> "d".
Proof.
  intro W. pose proof (clause_chars c l W) as CC. split.
  - intro Hin. apply CC in Hin. apply clause_char_ok in Hin. tauto.
  - destruct l as [|a l].
    + exfalso. unfold clause_line in W. simpl in W. destruct (map lit_text c); discriminate.
    + exists a, l. pose proof (clause_char_ok a (CC a (or_introl eq_refl))). tauto.
Qed.

(** ** What is written: one line for each element of [f], as described by [R] *)

Definition wrote {A} (R : A -> text -> Prop) (f : list A) (t : text) : Prop :=
  exists cs, t = unlines cs /\ (forall l, In l cs -> ~ In LF l) /\ Forall2 R f cs.

Lemma wrote_nil {A} (R : A -> text -> Prop) : wrote R [] [].
Proof. exists []. repeat split; auto. Qed.

Lemma wrote_app {A} (R : A -> text -> Prop) f1 t1 f2 t2 : wrote R f1 t1 -> wrote R f2 t2 -> wrote R (f1 ++ f2) (t1 ++ t2).
Proof.
  intros (c1 & -> & N1 & F1) (c2 & -> & N2 & F2). exists (c1 ++ c2). split; [rewrite unlines_app; auto|].
  split; [|apply Forall2_app; auto]. intros l Hl. apply in_app_or in Hl. destruct Hl; auto.
Qed.

Lemma wrote_line {A} (R : A -> text -> Prop) c l : ~ In LF l -> R c l -> wrote R [c] (l ++ [LF]).
Proof.
  intros N H. exists [l]. split; [unfold unlines; simpl; rewrite app_nil_r; auto|]. split; [|constructor; auto].
  intros x [<-|[]]; auto.
Qed.

Lemma wrote_concat {A B} (R : B -> text -> Prop) (f : A -> list B) (t : A -> text) (xs : list A) :
  (forall x, In x xs -> wrote R (f x) (t x)) -> wrote R (List.concat (map f xs)) (List.concat (map t xs)).
Proof.
  induction xs as [|x xs IH]; intro H; [apply wrote_nil|]. simpl. apply wrote_app; [apply H; left; auto|].
  apply IH. intros; apply H; right; auto.
Qed.
