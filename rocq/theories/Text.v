(** * Facts about texts, words and numbers *)

From Coq Require Import Ascii String DecimalString Decimal DecimalPos.
From Verif Require Import Spec Outcome TextSpec ModelText.
#[local] Open Scope char_scope.
#[local] Open Scope Z_scope.

(** ** Numbers *)

Definition is_digit (a : ascii) : bool := match digit a with Some _ => true | None => false end.

Fixpoint uval (acc : Z) (d : uint) : Z :=
  match d with
  | Nil => acc
  | D0 d => uval (10 * acc + 0) d
  | D1 d => uval (10 * acc + 1) d
  | D2 d => uval (10 * acc + 2) d
  | D3 d => uval (10 * acc + 3) d
  | D4 d => uval (10 * acc + 4) d
  | D5 d => uval (10 * acc + 5) d
  | D6 d => uval (10 * acc + 6) d
  | D7 d => uval (10 * acc + 7) d
  | D8 d => uval (10 * acc + 8) d
  | D9 d => uval (10 * acc + 9) d
  end.

Definition utext (d : uint) : text := txt (NilEmpty.string_of_uint d).

Lemma utext_digits d : forall a, In a (utext d) -> is_digit a = true.
Proof. induction d; simpl; intros a H; [tauto|destruct H as [<-|H]; [reflexivity|apply IHd; exact H]..]. Qed.

Definition stops (r : text) : Prop := match r with a :: _ => is_digit a = false | [] => True end.

Lemma scan_utext d : forall acc r, stops r -> scan_digits acc (utext d ++ r) = (uval acc d, r).
Proof.
  induction d; intros acc r H; try (simpl; rewrite <- IHd by auto; reflexivity).
  simpl. destruct r as [|a r]; auto. simpl in *. unfold is_digit in H. destruct (digit a); [discriminate|auto].
Qed.

Lemma uval_acc d : forall p, uval (Zpos p) d = Zpos (Pos.of_uint_acc d p).
Proof.
  induction d; intro p; auto; cbn [uval Pos.of_uint_acc]; rewrite <- IHd; f_equal;
    rewrite ?Pos2Z.inj_add, ?Pos2Z.inj_mul; lia.
Qed.

Lemma uval_N d : uval 0 d = Z.of_N (Pos.of_uint d).
Proof.
  induction d; cbn [uval Pos.of_uint]; auto;
    try (change (10 * 0 + 0) with 0; exact IHd);
    match goal with |- uval ?x _ = _ => let y := eval compute in x in change x with y end;
    rewrite uval_acc; reflexivity.
Qed.

Lemma num_pos p : num (Zpos p) = utext (Pos.to_uint p).
Proof.
  unfold num, utext. cbn [Z.to_int NilZero.string_of_int]. unfold NilZero.string_of_uint.
  destruct (Pos.to_uint p) eqn:E; auto. destruct (Unsigned.to_uint_nonnil p E).
Qed.

Lemma num_neg p : num (Zneg p) = "-" :: utext (Pos.to_uint p).
Proof.
  unfold num, utext. cbn [Z.to_int NilZero.string_of_int]. unfold NilZero.string_of_uint.
  destruct (Pos.to_uint p) eqn:E; auto. destruct (Unsigned.to_uint_nonnil p E).
Qed.

Lemma utext_nonempty p : exists a r, utext (Pos.to_uint p) = a :: r /\ is_digit a = true.
Proof.
  destruct (utext (Pos.to_uint p)) as [|a r] eqn:E.
  - exfalso. unfold utext in E. destruct (Pos.to_uint p) eqn:Ep; try discriminate.
    destruct (Unsigned.to_uint_nonnil p Ep).
  - exists a, r. split; auto. apply (utext_digits (Pos.to_uint p)). rewrite E. left; auto.
Qed.

Lemma num_digits z : 0 <= z -> exists a r, num z = a :: r /\ forall x, In x (num z) -> is_digit x = true.
Proof.
  intro H. destruct z as [|p|p]; [|rewrite num_pos|lia].
  - exists "0", []. split; auto. intros x [<-|[]]. reflexivity.
  - destruct (utext_nonempty p) as (a & r & E & D). exists a, r. split; auto. apply utext_digits.
Qed.

Lemma scan_num_nat z r : 0 <= z -> stops r -> scan_nat (num z ++ r) = Some (z, r).
Proof.
  intros H S. destruct z as [|p|p]; [|rewrite num_pos|lia].
  - change (num 0 ++ r) with (utext (D0 Nil) ++ r). unfold scan_nat. change (utext (D0 Nil) ++ r) with ("0" :: r) at 1.
    change (digit "0") with (Some 0). rewrite scan_utext by auto. reflexivity.
  - assert (E : scan_digits 0 (utext (Pos.to_uint p) ++ r) = (Zpos p, r)).
    { rewrite scan_utext by auto. rewrite uval_N, Unsigned.of_to. reflexivity. }
    destruct (utext_nonempty p) as (a & q & E1 & D). rewrite E1 in *. simpl app in *. unfold scan_nat.
    unfold is_digit in D. destruct (digit a) eqn:Da; [|discriminate]. rewrite E. reflexivity.
Qed.

Lemma digit_sign a : is_digit a = true -> a <> "-" /\ a <> "+".
Proof. intro H. split; intros ->; discriminate. Qed.

Lemma scan_int_digit a t : is_digit a = true -> scan_int (a :: t) = scan_nat (a :: t).
Proof.
  intro H. unfold scan_int.
  destruct a as [[] [] [] [] [] [] [] []]; try reflexivity; discriminate.
Qed.

Lemma scan_num z r : stops r -> scan_int (num z ++ r) = Some (z, r).
Proof.
  intro S. destruct (Z_lt_le_dec z 0) as [L|L].
  - destruct z as [|p|p]; try lia. rewrite num_neg. simpl app. unfold scan_int.
    rewrite <- num_pos. rewrite scan_num_nat by (auto; lia). reflexivity.
  - destruct (num_digits z L) as (a & q & E & D). assert (Da : is_digit a = true) by (apply D; rewrite E; left; auto).
    assert (G := scan_num_nat z r L S). rewrite E in *. simpl app in *. rewrite scan_int_digit; auto.
Qed.

Lemma digit_space a : is_digit a = true -> isspace a = false.
Proof. destruct a as [[] [] [] [] [] [] [] []]; intro H; try discriminate H; reflexivity. Qed.

Lemma skip_num z r : skip_space (num z ++ r) = num z ++ r.
Proof.
  destruct (Z_lt_le_dec z 0) as [L|L].
  - destruct z as [|p|p]; try lia. rewrite num_neg. reflexivity.
  - destruct (num_digits z L) as (a & q & E & D). rewrite E. simpl app. unfold skip_space.
    rewrite digit_space; auto. apply D. rewrite E. left; auto.
Qed.

(** [num] is what operator<< writes, and reading it back gives the number. *)
Lemma atoi_num z : in_int z = true -> atoi (num z) = Ok z.
Proof.
  intro H. unfold atoi. rewrite <- (app_nil_r (num z)). rewrite skip_num, scan_num by exact I. rewrite H. auto.
Qed.

(** ** Words *)

Lemma blank_space a : blank a = true -> isspace a = true.
Proof.
  unfold blank. intro H. apply orb_true_iff in H. destruct H as [H|H]; apply Ascii.eqb_eq in H; subst; reflexivity.
Qed.

Lemma line_words_from : forall t cur, line_words cur t = words_from (rev cur) t.
Proof.
  induction t as [|a t IH]; intro cur; simpl.
  - destruct cur as [|b cur]; auto. simpl. destruct (rev cur); auto.
  - unfold blank, SP, TAB. destruct (_ || _).
    + destruct cur as [|b cur]; simpl; rewrite IH; auto. destruct (rev cur); auto.
    + rewrite IH. reflexivity.
Qed.

Lemma line_words_eq t : line_words [] t = words t.
Proof. apply line_words_from. Qed.

Definition solid (w : text) : Prop := w <> [] /\ forall a, In a w -> blank a = false.

(** The rest of a line after a word. *)
Definition gap (r : text) : Prop := match r with a :: _ => blank a = true | [] => True end.

Lemma words_from_cons : forall t w v ws, words_from w t = v :: ws -> (forall a, In a w -> blank a = false) ->
  w <> [] -> exists u r, v = w ++ u /\ t = u ++ r /\ (forall a, In a u -> blank a = false) /\ gap r /\ words r = ws.
Proof.
  induction t as [|a t IH]; intros w v ws H Hw Ne; simpl in H.
  - exists [], []. destruct w as [|b w]; [congruence|]. simpl in H. injection H as <- <-.
    rewrite app_nil_r. repeat split; auto. intros x [].
  - destruct (blank a) eqn:B.
    + exists [], (a :: t). destruct w as [|b w]; [congruence|]. simpl in H. injection H as <- <-.
      rewrite app_nil_r. repeat split; auto; [intros x []|]. unfold words. simpl. rewrite B. reflexivity.
    + apply IH in H.
      * destruct H as (u & r & E1 & E2 & E3 & E4 & E5). exists (a :: u), r. split; [rewrite E1, <- app_assoc; auto|].
        split; [rewrite E2; auto|]. split; auto. intros x [<-|Hx]; auto.
      * intros x Hx. apply in_app_or in Hx. destruct Hx as [Hx|[<-|[]]]; auto.
      * destruct w; discriminate.
Qed.

Lemma words_cons : forall t v ws, words t = v :: ws ->
  exists b r, t = b ++ v ++ r /\ (forall a, In a b -> blank a = true) /\ solid v /\ gap r /\ words r = ws.
Proof.
  induction t as [|a t IH]; intros v ws H; [discriminate|]. unfold words in H. simpl in H.
  destruct (blank a) eqn:B.
  - simpl in H. apply IH in H. destruct H as (b & r & E & Hb & S & G & W). exists (a :: b), r.
    split; [rewrite E; auto|]. split; [|auto]. intros x [<-|Hx]; auto.
  - apply words_from_cons in H.
    + destruct H as (u & r & E1 & E2 & E3 & E4 & E5). exists [], r. subst. simpl. split; auto.
      split; [intros x []|]. split; [|auto]. split; [discriminate|]. intros x [<-|Hx]; auto.
    + intros x [<-|[]]; auto.
    + discriminate.
Qed.

Lemma words_nil : forall t, words t = [] -> forall a, In a t -> blank a = true.
Proof.
  induction t as [|a t IH]; intros H x Hx; [destruct Hx|]. unfold words in H. simpl in H.
  destruct (blank a) eqn:B.
  - destruct Hx as [<-|Hx]; auto.
  - exfalso. clear -H. assert (G : forall t w, w <> [] -> words_from w t <> []); [|apply (G t [a]); auto; discriminate].
    clear. induction t as [|a t IH]; intros w Ne; simpl.
    + destruct w; [congruence|discriminate].
    + destruct (blank a).
      * destruct w; [congruence|discriminate].
      * apply IH. destruct w; discriminate.
Qed.

(** Every character is a blank or in a word. *)
Lemma words_chars : forall ws t, words t = ws -> forall a, In a t -> blank a = true \/ exists w, In w ws /\ In a w.
Proof.
  induction ws as [|w ws IH]; intros t H a Ha.
  - left. apply (words_nil t); auto.
  - apply words_cons in H. destruct H as (b & r & E & Hb & S & G & W). subst t.
    apply in_app_or in Ha. destruct Ha as [Ha|Ha]; auto. apply in_app_or in Ha. destruct Ha as [Ha|Ha].
    + right. exists w. split; [left; auto|auto].
    + destruct (IH r W a Ha) as [B|(w' & H1 & H2)]; auto. right. exists w'. split; [right; auto|auto].
Qed.

Lemma skip_blanks b r : (forall a, In a b -> blank a = true) -> skip_space (b ++ r) = skip_space r.
Proof.
  induction b as [|a b IH]; intro H; auto. simpl. rewrite blank_space by (apply H; left; auto).
  apply IH. intros; apply H; right; auto.
Qed.

Lemma gap_stops r : gap r -> stops r.
Proof.
  destruct r as [|a r]; simpl; auto. intro H. apply orb_true_iff in H.
  destruct H as [H|H]; apply Ascii.eqb_eq in H; subst; reflexivity.
Qed.

(** ** Lines *)

Lemma getlines_line : forall l cur t, ~ In LF l ->
  getlines cur (l ++ LF :: t) =
  if Z.of_nat (length cur + length l) <=? 2999 then (rev cur ++ l) :: getlines [] t else [].
Proof.
  induction l as [|a l IH]; intros cur t H; simpl app; cbn [getlines].
  - rewrite Ascii.eqb_refl, Nat.add_0_r, app_nil_r. reflexivity.
  - rewrite (proj2 (Ascii.eqb_neq a LF)) by (intros ->; apply H; left; auto).
    rewrite IH by (intro; apply H; right; auto). simpl. rewrite <- app_assoc, Nat.add_succ_r. reflexivity.
Qed.

Lemma getlines_last : forall l cur, ~ In LF l -> l <> [] \/ cur <> [] ->
  getlines cur l = if Z.of_nat (length cur + length l) <=? 2999 then [rev cur ++ l] else [].
Proof.
  induction l as [|a l IH]; intros cur H Ne.
  - simpl. rewrite Nat.add_0_r, app_nil_r. destruct cur as [|b cur]; [destruct Ne; congruence|reflexivity].
  - cbn [getlines].
    rewrite (proj2 (Ascii.eqb_neq a LF)) by (intros ->; apply H; left; auto).
    rewrite IH; [|intro; apply H; right; auto|right; discriminate]. simpl. rewrite <- app_assoc, Nat.add_succ_r. reflexivity.
Qed.

Definition short (l : text) : Prop := Z.of_nat (length l) < 3000.

Lemma unlines_cons l ls : unlines (l :: ls) = l ++ LF :: unlines ls.
Proof. unfold unlines. simpl. rewrite <- app_assoc. reflexivity. Qed.

Lemma getlines_unlines ls : (forall l, In l ls -> ~ In LF l) -> (forall l, In l ls -> short l) ->
  getlines [] (unlines ls) = ls.
Proof.
  induction ls as [|l ls IH]; intros N S; [reflexivity|]. rewrite unlines_cons.
  rewrite getlines_line by (apply N; left; auto). simpl.
  assert (L : short l) by (apply S; left; auto). unfold short in L.
  destruct (Z.leb_spec (Z.of_nat (length l)) 2999); [|lia].
  rewrite IH; auto; intros; [apply N|apply S]; right; auto.
Qed.

Lemma unlines_app l1 l2 : unlines (l1 ++ l2) = (unlines l1 ++ unlines l2)%list.
Proof. unfold unlines. rewrite map_app, concat_app. reflexivity. Qed.

Lemma getlines_unlines_app ls t : (forall l, In l ls -> ~ In LF l) -> (forall l, In l ls -> short l) ->
  getlines [] (unlines ls ++ t) = (ls ++ getlines [] t)%list.
Proof.
  induction ls as [|l ls IH]; intros N S; [reflexivity|]. rewrite unlines_cons, <- app_assoc. simpl app.
  rewrite getlines_line by (apply N; left; auto). simpl.
  assert (L : short l) by (apply S; left; auto). unfold short in L.
  destruct (Z.leb_spec (Z.of_nat (length l)) 2999); [|lia].
  rewrite IH; auto; intros; [apply N|apply S]; right; auto.
Qed.

Lemma getlines_has t ls : has_lines t ls -> (forall l, In l ls -> short l) -> getlines [] t = ls.
Proof.
  intros (N & [->|(E & La)]) S; [apply getlines_unlines; auto|].
  destruct ls as [|l0 ls0] using rev_ind; [destruct t; discriminate|]. clear IHls0.
  rewrite last_last in La. rewrite unlines_app in E. unfold unlines at 2 in E. simpl in E. rewrite app_nil_r in E.
  rewrite app_assoc in E. apply app_inj_tail in E. destruct E as (-> & _).
  assert (I0 : In l0 (ls0 ++ [l0])) by (apply in_or_app; right; left; auto).
  rewrite getlines_unlines_app; [|intros; apply N; apply in_or_app; auto|intros; apply S; apply in_or_app; auto].
  f_equal. rewrite getlines_last by auto. simpl. pose proof (S l0 I0) as L. unfold short in L.
  destruct (Z.leb_spec (Z.of_nat (length l0)) 2999); [auto|lia].
Qed.

(** The lines of a text are unique. *)
Lemma unlines_inj : forall l1 l2, (forall l, In l l1 -> ~ In LF l) -> (forall l, In l l2 -> ~ In LF l) ->
  unlines l1 = unlines l2 -> l1 = l2.
Proof.
  assert (G : forall (a b r s : text), ~ In LF a -> ~ In LF b -> (a ++ LF :: r = b ++ LF :: s)%list -> a = b /\ r = s).
  { induction a as [|x a IH]; intros b r s Ha Hb E.
    - destruct b as [|y b]; simpl in E; [injection E as ->; auto|]. injection E as <- _. exfalso; apply Hb; left; auto.
    - destruct b as [|y b]; simpl in E.
      + injection E as -> _. exfalso; apply Ha; left; auto.
      + injection E as <- E. apply IH in E; [|intro; apply Ha; right; auto|intro; apply Hb; right; auto].
        destruct E as (-> & ->). auto. }
  induction l1 as [|a l1 IH]; intros l2 H1 H2 E.
  - destruct l2 as [|b l2]; auto. rewrite unlines_cons in E. destruct b; discriminate.
  - destruct l2 as [|b l2]; [rewrite unlines_cons in E; destruct a; discriminate|].
    rewrite !unlines_cons in E. apply G in E; [|apply H1; left; auto|apply H2; left; auto].
    destruct E as (-> & E). f_equal. apply IH; auto; intros; [apply H1|apply H2]; right; auto.
Qed.

Lemma cstr_id l : ~ In NUL l -> cstr l = l.
Proof.
  induction l as [|a l IH]; intro H; auto. simpl.
  rewrite (proj2 (Ascii.eqb_neq a NUL)) by (intros ->; apply H; left; auto).
  rewrite IH; auto. intro; apply H; right; auto.
Qed.

Lemma num_not_nul z a : In a (num z) -> is_digit a = true \/ a = "-".
Proof.
  destruct (Z_lt_le_dec z 0) as [L|L].
  - destruct z as [|p|p]; try lia. rewrite num_neg. intros [<-|H]; auto. left. apply (utext_digits (Pos.to_uint p)); auto.
  - destruct (num_digits z L) as (x & q & E & D). auto.
Qed.

Lemma num_inj a b : num a = num b -> a = b.
Proof.
  intro E. pose proof (scan_num a [] I) as A. pose proof (scan_num b [] I) as B. rewrite E in A. congruence.
Qed.

Lemma has_lines_unique t l1 l2 : has_lines t l1 -> has_lines t l2 -> l1 = l2.
Proof.
  assert (G : forall t l1 l2, t = unlines l1 -> t ++ [LF] = unlines l2 -> (forall l, In l l1 -> ~ In LF l) ->
            (forall l, In l l2 -> ~ In LF l) -> last l2 [] <> [] -> False).
  { clear. intros t l1 l2 E1 E2 N1 N2 La.
    assert (E : unlines (l1 ++ [[]]) = unlines l2).
    { rewrite unlines_app, <- E1, <- E2. reflexivity. }
    apply unlines_inj in E; auto.
    - subst l2. rewrite last_last in La. congruence.
    - intros l Hl. apply in_app_or in Hl. destruct Hl as [Hl|[<-|[]]]; [auto|intros []]. }
  intros (N1 & H1) (N2 & H2). destruct H1 as [H1|(H1 & L1)]; destruct H2 as [H2|(H2 & L2)].
  - apply unlines_inj; auto. congruence.
  - destruct (G t l1 l2); auto.
  - destruct (G t l2 l1); auto.
  - apply unlines_inj; auto. congruence.
Qed.

Lemma lines_below_intro n t ls : has_lines t ls -> (forall l, In l ls -> Z.of_nat (length l) < n) -> lines_below n t.
Proof. intros H B ls' H'. rewrite (has_lines_unique t ls' ls); auto. Qed.
