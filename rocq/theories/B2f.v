(** * The conversion of Boolean problems *)

From Coq Require Import Ascii String Sorting.Sorted.
From Verif Require Import Spec Outcome State Base TextSpec ModelText EncodeSpec ModelEncode ModelB2f Text Read Encode.
#[local] Open Scope char_scope.
#[local] Open Scope Z_scope.

(** ** The set *)

Definition inserts (zs : list Z) (s : list Z) : list Z := fold_left (fun s x => set_insert x s) zs s.

Lemma in_set_insert x y s : In y (set_insert x s) <-> y = x \/ In y s.
Proof.
  induction s as [|z s IH]; simpl; [intuition|]. destruct (Z.ltb_spec x z); [simpl; intuition|].
  destruct (Z.eqb_spec x z) as [->|N]; simpl; [intuition|]. rewrite IH. intuition.
Qed.

Lemma inserts_app a b s : inserts (a ++ b) s = inserts b (inserts a s).
Proof. apply fold_left_app. Qed.

Lemma in_inserts : forall zs y s, In y (inserts zs s) <-> In y zs \/ In y s.
Proof.
  induction zs as [|x zs IH]; intros y s; simpl; [intuition|]. unfold inserts in IH. rewrite IH, in_set_insert. intuition.
Qed.

Lemma sorted_insert x s : StronglySorted Z.lt s -> StronglySorted Z.lt (set_insert x s).
Proof.
  induction s as [|y s IH]; intro H; simpl; [repeat constructor|]. inversion H as [|a l S F]; subst.
  destruct (Z.ltb_spec x y) as [L|L].
  - constructor; auto. constructor; auto. rewrite Forall_forall in *. intros z Hz. specialize (F z Hz). lia.
  - destruct (Z.eqb_spec x y) as [E|N]; auto. constructor; auto. rewrite Forall_forall in *. intros z Hz.
    apply in_set_insert in Hz. destruct Hz as [->|Hz]; [lia|auto].
Qed.

Lemma sorted_inserts : forall zs s, StronglySorted Z.lt s -> StronglySorted Z.lt (inserts zs s).
Proof. induction zs as [|x zs IH]; intros s H; simpl; auto. apply IH. apply sorted_insert. auto. Qed.

Lemma sorted_same : forall a b, StronglySorted Z.lt a -> StronglySorted Z.lt b -> (forall x, In x a <-> In x b) -> a = b.
Proof.
  induction a as [|x a IH]; intros b Sa Sb H.
  - destruct b as [|y b]; auto. exfalso. apply (H y). left. auto.
  - destruct b as [|y b]; [exfalso; apply (H x); left; auto|].
    inversion Sa as [|? ? Sa' Fa]; subst. inversion Sb as [|? ? Sb' Fb]; subst. rewrite Forall_forall in *.
    assert (E : x = y).
    { destruct (proj1 (H x) (or_introl eq_refl)) as [E|I1]; auto. destruct (proj2 (H y) (or_introl eq_refl)) as [E|I2]; auto.
      specialize (Fa y I2). specialize (Fb x I1). lia. }
    subst y. f_equal. apply IH; auto. intro z. split; intro Hz.
    + destruct (proj1 (H z) (or_intror Hz)) as [E|]; auto. subst z. specialize (Fa x Hz). lia.
    + destruct (proj2 (H z) (or_intror Hz)) as [E|]; auto. subst z. specialize (Fb x Hz). lia.
Qed.

Lemma loop_sorted : forall k i, StronglySorted Z.lt (loop i (i + Z.of_nat k)).
Proof.
  induction k as [|k IH]; intro i; [rewrite loop_empty by lia; constructor|].
  rewrite loop_cons by lia. replace (i + Z.of_nat (S k)) with (i + 1 + Z.of_nat k) by lia. constructor; auto.
  rewrite Forall_forall. intros x Hx. apply in_loop in Hx. lia.
Qed.

(** ** Clause lines *)

Lemma scan_words : forall c vars temp, (forall z, In z c -> 1 <= Z.abs z <= int_max) ->
  foldM b2f_word (map num c ++ [txt "0"]) (vars, temp) = Ok (inserts (map Z.abs c ++ [0]) vars, temp ++ c).
Proof.
  assert (A0 : atoi (txt "0") = Ok 0) by reflexivity.
  induction c as [|z c IH]; intros vars temp H.
  - change (map num [] ++ [txt "0"])%list with [txt "0"]. cbn [foldM]. unfold b2f_word. rewrite A0. cbn [bind].
    change (i32 (Z.abs 0)) with (Ok 0). cbn [bind Z.eqb]. rewrite app_nil_r. reflexivity.
  - pose proof (H z (or_introl eq_refl)) as Hz. unfold int_max in Hz.
    assert (E : b2f_word (vars, temp) (num z) = Ok (set_insert (Z.abs z) vars, temp ++ [z])).
    { unfold b2f_word. rewrite atoi_num by (unfold in_int; lia). cbn [bind]. rewrite i32_ok by (unfold int_max; lia). cbn [bind].
      rewrite (proj2 (Z.eqb_neq z 0)) by lia. reflexivity. }
    cbn [map app foldM]. rewrite E. cbn [bind]. rewrite IH by (intros; apply H; right; auto). rewrite <- app_assoc. reflexivity.
Qed.

Lemma row_chars c l : words l = (map num c ++ [txt "0"])%list ->
  ~ In NUL l /\ exists a r, l = a :: r /\ a <> "c" /\ a <> "p".
Proof.
  intro W. assert (C : forall a, In a l -> blank a = true \/ is_digit a = true \/ a = "-").
  { intros a Ha. destruct (words_chars _ _ W a Ha) as [B|(w & Hw & Hin)]; auto. right. apply in_app_or in Hw. destruct Hw as [Hw|[<-|[]]].
    - apply in_map_iff in Hw. destruct Hw as (z & <- & _). apply num_not_nul in Hin. tauto.
    - destruct Hin as [<-|[]]. left. reflexivity. }
  split.
  - intro Hin. destruct (C _ Hin) as [B|[B|B]]; discriminate.
  - destruct l as [|a l].
    + exfalso. simpl in W. destruct (map num c); discriminate.
    + exists a, l. split; auto. specialize (C a (or_introl eq_refl)). split; intros ->; destruct C as [B|[B|B]]; discriminate.
Qed.

Lemma b2f_row s c l : words l = (map num c ++ [txt "0"])%list -> (forall z, In z c -> 1 <= Z.abs z <= int_max) ->
  b2f_line s l = Ok (mkB2f (inserts (map Z.abs c ++ [0]) (b_vars s)) (b_data s ++ [c]) (b_out s)).
Proof.
  intros W H. destruct (row_chars c l W) as (N & a & r & El & H1 & H2).
  assert (Q : b2f_line s l = let* x := foldM b2f_word (line_words [] l) (b_vars s, []) in
            let (vars, temp) := x in Ok (mkB2f vars (b_data s ++ [temp]) (b_out s))).
  { unfold b2f_line. rewrite cstr_id by auto. rewrite El. clear -H1 H2.
    destruct a as [[] [] [] [] [] [] [] []]; try reflexivity; congruence. }
  rewrite Q, line_words_eq, W, scan_words by auto. reflexivity.
Qed.

Lemma cstr_no_lf l : ~ In LF l -> ~ In LF (cstr l).
Proof.
  induction l as [|a l IH]; intro H; simpl; auto. destruct (Ascii.eqb a NUL); [intros []|].
  intros [E|E]; [apply H; left; auto|]. apply IH in E; auto. intro; apply H; right; auto.
Qed.

Lemma cstr_length l : (length (cstr l) <= length l)%nat.
Proof. induction l as [|a l IH]; simpl; auto. destruct (Ascii.eqb a NUL); simpl; lia. Qed.

(** A comment line is copied. *)
Lemma b2f_comment s l : is_comment l = true ->
  b2f_line s l = Ok (mkB2f (b_vars s) (b_data s) (b_out s ++ cstr l ++ [LF])) /\ is_comment (cstr l) = true.
Proof.
  intro H. destruct l as [|a l]; [discriminate|]. simpl in H. apply Ascii.eqb_eq in H. subst a.
  unfold b2f_line. cbn [cstr]. change (Ascii.eqb "c" NUL) with false. split; reflexivity.
Qed.

(** ** The lines after the header *)

Definition copied (t : text) (n : Z) (ks : list text) : Prop :=
  t = unlines ks /\ forall l, In l ks -> is_comment l = true /\ ~ In LF l /\ Z.of_nat (length l) < n.

Lemma copied_nil n : copied [] n [].
Proof. split; auto. intros l []. Qed.

Lemma b2f_rows n : forall ls C cs s, filter (fun l => negb (is_comment l)) ls = cs ->
  (forall l, In l ls -> ~ In LF l /\ Z.of_nat (length l) < n) ->
  Forall2 (fun c l => words l = map num c ++ [txt "0"])%list C cs -> (forall c z, In c C -> In z c -> 1 <= Z.abs z <= int_max) ->
  exists t ks, foldM b2f_line ls s =
    Ok (mkB2f (inserts (List.concat (map (fun c => map Z.abs c ++ [0]) C)) (b_vars s)) (b_data s ++ C) (b_out s ++ t)) /\ copied t n ks.
Proof.
  induction ls as [|l ls IH]; intros C cs s F HL HC HI.
  - simpl in F. subst cs. inversion HC; subst. exists [], []. split; [|apply copied_nil]. simpl. rewrite !app_nil_r. destruct s; reflexivity.
  - cbn [filter] in F. destruct (is_comment l) eqn:Ec; cbn [negb] in F.
    + destruct (b2f_comment s l Ec) as (E1 & E2). cbn [foldM]. rewrite E1. cbn [bind].
      destruct (IH C cs (mkB2f (b_vars s) (b_data s) (b_out s ++ cstr l ++ [LF])) F) as (t & ks & E & K1 & K2); auto.
      { intros; apply HL; right; auto. }
      exists ((cstr l ++ [LF]) ++ t)%list, (cstr l :: ks). rewrite E. cbn [b_vars b_data b_out]. split.
      * rewrite <- !app_assoc. reflexivity.
      * split; [rewrite unlines_cons, K1, <- app_assoc; reflexivity|]. intros x [<-|Hx]; [|auto].
        destruct (HL l (or_introl eq_refl)) as (H1 & H2). split; auto. split; [apply cstr_no_lf; auto|].
        pose proof (cstr_length l). lia.
    + destruct HC as [|c l' C cs' Hc HC]; [discriminate|]. injection F as -> F. cbn [foldM].
      rewrite (b2f_row s c l' Hc) by (intros; apply (HI c); auto; left; auto). cbn [bind].
      destruct (IH C cs' (mkB2f (inserts (map Z.abs c ++ [0]) (b_vars s)) (b_data s ++ [c]) (b_out s)) F) as (t & ks & E & K); auto.
      { intros; apply HL; right; auto. } { intros; eapply HI; [right|]; eauto. }
      exists t, ks. split; auto. rewrite E. cbn [b_vars b_data b_out map List.concat]. rewrite (inserts_app (map Z.abs c ++ [0])), <- (app_assoc (b_data s)). reflexivity.
Qed.

Lemma filter_first {A} (f : A -> bool) : forall l x xs, filter f l = x :: xs ->
  exists pre post, l = (pre ++ x :: post)%list /\ filter f pre = [] /\ f x = true /\ filter f post = xs.
Proof.
  induction l as [|y l IH]; intros x xs H; [discriminate|]. cbn [filter] in H. destruct (f y) eqn:E.
  - injection H as -> H. exists [], l. auto.
  - destruct (IH x xs H) as (pre & post & -> & H1 & H2 & H3). exists (y :: pre), post. cbn [filter]. rewrite E. auto.
Qed.

(** ** The output *)

Definition dom_row (v : Z) : text := (txt "d " ++ num v ++ txt " 2")%list.
Definition fin_row (c : list Z) : text := List.concat (map (fun w => w ++ [SP])%list (map lit_text (map finite_lit c))).

Lemma b2f_clause_row c : (forall z, In z c -> z <> 0) -> b2f_clause c = (fin_row c ++ [LF])%list.
Proof.
  intro H. unfold b2f_clause, fin_row. f_equal. f_equal. rewrite !map_map. apply map_ext_in. intros z Hz. specialize (H z Hz).
  unfold lit_text, finite_lit. cbn [lvar lval leq]. destruct (Z.ltb_spec z 0).
  - destruct (Z.ltb_spec 0 z); [lia|]. replace (Z.abs z) with (- z) by lia. rewrite <- !app_assoc. reflexivity.
  - destruct (Z.ltb_spec 0 z); [|lia]. replace (Z.abs z) with z by lia. rewrite <- !app_assoc. reflexivity.
Qed.

Lemma fin_row_words c : words (fin_row c) = map lit_text (map finite_lit c).
Proof.
  unfold fin_row. rewrite <- (app_nil_r (List.concat _)), words_row, app_nil_r; auto.
  intros w Hw. apply in_map_iff in Hw. destruct Hw as (l & <- & _). apply lit_solid.
Qed.

Lemma dom_row_line v : domain_line v 2 (dom_row v).
Proof.
  split; [eexists; reflexivity|]. unfold dom_row. change (txt "d " ++ num v ++ txt " 2")%list with (txt "d" ++ SP :: num v ++ SP :: txt "2")%list.
  rewrite words_word by (apply txt_solid; [reflexivity|discriminate]). rewrite words_word by apply num_solid.
  rewrite words_one by (apply txt_solid; [reflexivity|discriminate]). reflexivity.
Qed.

Lemma dom_rows_lines : forall k v, domain_lines v (repeat 2 k) (map dom_row (loop v (v + Z.of_nat k))).
Proof.
  induction k as [|k IH]; intro v; [rewrite loop_empty by lia; exact I|].
  rewrite loop_cons by lia. cbn [repeat map domain_lines]. split; [apply dom_row_line|].
  replace (v + Z.of_nat (S k)) with (v + 1 + Z.of_nat k) by lia. apply IH.
Qed.

Lemma unlines_map {A} (f : A -> text) l : List.concat (map (fun x => f x ++ [LF])%list l) = unlines (map f l).
Proof. induction l as [|x l IH]; auto. cbn [map List.concat]. rewrite IH, unlines_cons, <- app_assoc. reflexivity. Qed.

(** ** Lengths *)

Definition weight (k : nat) (ws : list text) : nat := fold_right (fun w n => (length w + k + n)%nat) 0%nat ws.

Lemma words_weight_from : forall t w, (weight 1 (words_from w t) <= length w + length t + 1)%nat.
Proof.
  assert (F : forall w ws, (weight 1 (flush w ws) <= length w + 1 + weight 1 ws)%nat) by (intros [|a w] ws; simpl; lia).
  induction t as [|a t IH]; intro w; simpl.
  - pose proof (F w []). simpl in H. lia.
  - destruct (blank a).
    + pose proof (F w (words_from [] t)). specialize (IH []). simpl in IH. lia.
    + specialize (IH (w ++ [a])%list). rewrite app_length in IH. simpl in IH. lia.
Qed.

Lemma words_weight t : (weight 1 (words t) <= length t + 1)%nat.
Proof. pose proof (words_weight_from t []). simpl in H. auto. Qed.

Lemma num_abs_length z : (length (num (Z.abs z)) <= length (num z))%nat /\ (1 <= length (num z))%nat.
Proof.
  split.
  - destruct z as [|q|q]; auto. change (Z.abs (Z.neg q)) with (Z.pos q). rewrite num_neg, num_pos. simpl. lia.
  - destruct (num_solid z) as (N & _). destruct (num z); [congruence|simpl; lia].
Qed.

Lemma fin_row_length c l : words l = (map num c ++ [txt "0"])%list -> (length (fin_row c) <= 2 * length l)%nat.
Proof.
  intro W. pose proof (words_weight l) as B. rewrite W in B.
  assert (G : (length (fin_row c) + 4 <= 2 * weight 1 (map num c ++ [txt "0"]))%nat).
  { clear. induction c as [|z c IH]; [simpl; lia|]. unfold fin_row in *. cbn [map List.concat app weight fold_right]. fold (weight 1 (map num c ++ [txt "0"])).
    rewrite !app_length. unfold lit_text at 1. rewrite !app_length. cbn [finite_lit lvar lval leq].
    destruct (num_abs_length z) as (H1 & H2).
    assert (H3 : length (num (if 0 <? z then 1 else 0)) = 1%nat) by (destruct (0 <? z); reflexivity).
    rewrite H3. simpl (length (txt "=")). simpl (length [SP]). lia. }
  lia.
Qed.

Lemma dom_row_length z c l : words l = (map num c ++ [txt "0"])%list -> In z c -> (length (dom_row (Z.abs z)) <= length l + 2)%nat.
Proof.
  intros W Hz. pose proof (words_weight l) as B. rewrite W in B. unfold dom_row. rewrite !app_length. simpl (length (txt "d ")). simpl (length (txt " 2")).
  destruct (num_abs_length z) as (H1 & _).
  assert (G : (length (num z) + 3 <= weight 1 (map num c ++ [txt "0"]))%nat).
  { clear -Hz. induction c as [|y c IH]; [destruct Hz|]. cbn [map app weight fold_right]. fold (weight 1 (map num c ++ [txt "0"])).
    assert (P : (2 <= weight 1 (map num c ++ [txt "0"]))%nat) by (clear; induction c as [|y c IH]; simpl in *; lia).
    destruct Hz as [->|Hz]; [lia|]. specialize (IH Hz). lia. }
  lia.
Qed.

(** ** The whole file *)

Lemma forall2_in {A B} (R : A -> B -> Prop) l l' : Forall2 R l l' -> forall x, In x l -> exists y, In y l' /\ R x y.
Proof. intro H. induction H as [|a b l l' H HH IH]; intros x Hx; [destruct Hx|]. destruct Hx as [->|Hx]; [exists b; split; [left|]; auto|]. destruct (IH x Hx) as (y & Hy & K). exists y. split; [right|]; auto. Qed.

Theorem b2f_written n f t : bool_cnf n f -> f <> [] -> 0 <= n <= int_max ->
  bool_file n f t -> lines_below 3000 t ->
  exists t', boolean2finite t = Ok t' /\ readable (finite_of n f) t' /\ (lines_below 1500 t -> lines_below 3000 t').
Proof.
  intros (B1 & B2) NE Hn (ls & hd & cs & HL & FL & Sh & Wh & HC) LB.
  assert (HI : forall c z, In c f -> In z c -> 1 <= Z.abs z <= int_max).
  { intros c z Hc Hz. destruct (B1 c Hc) as (_ & B). specialize (B z Hz). lia. }
  destruct HL as (HN & HT). pose proof (conj HN HT : has_lines t ls) as HL.
  set (m := 1 + Z.of_nat (fold_right Nat.max 0%nat (map (@length ascii) ls))).
  assert (HM : forall l, In l ls -> ~ In LF l /\ Z.of_nat (length l) < m).
  { intros l Hl. split; [auto|]. unfold m. clear -Hl. induction ls as [|x ls IH]; [destruct Hl|]. cbn [map fold_right].
    destruct Hl as [->|Hl]; [lia|]. specialize (IH Hl). lia. }
  destruct (filter_first _ _ _ _ FL) as (pre & post & -> & F1 & F2 & F3).
  destruct (b2f_rows m pre [] [] (mkB2f [] [] []) F1) as (t1 & k1 & E1 & K1 & K1').
  { intros l Hl. apply HM. apply in_or_app. auto. } { constructor. } { intros c z []. }
  assert (NH : ~ In NUL hd).
  { apply (line_no_nul _ _ Wh). intros w [<-|[<-|[<-|[<-|[]]]]]; try apply num_no_nul; simpl; intuition discriminate. }
  cbn [b_vars b_data b_out app map List.concat inserts fold_left] in E1.
  set (s1 := mkB2f [] [] (t1 ++ hd ++ [LF])).
  assert (EH : b2f_line (mkB2f [] [] t1) hd = Ok s1).
  { unfold b2f_line. rewrite cstr_id by auto. destruct Sh as (h' & ->). reflexivity. }
  destruct (b2f_rows m post f cs s1 F3) as (t2 & k2 & E2 & K2 & K2'); auto.
  { intros l Hl. apply HM. apply in_or_app. right. right. auto. }
  unfold boolean2finite. rewrite (getlines_has t _ HL (LB _ HL)). rewrite foldM_app, E1. cbn [bind foldM]. rewrite EH. cbn [bind]. rewrite E2. cbn [bind b_vars b_data b_out s1 app].
  set (V := inserts _ []).
  assert (EV : V = loop 0 (n + 1)).
  { apply sorted_same.
    - apply sorted_inserts. constructor.
    - replace (n + 1) with (0 + Z.of_nat (Z.to_nat (n + 1))) by lia. apply loop_sorted.
    - intro x. unfold V. rewrite in_inserts, in_concat, in_loop. split.
      + intros [(y & Hy & Hx)|[]]. apply in_map_iff in Hy. destruct Hy as (c & <- & Hc). apply in_app_or in Hx.
        destruct Hx as [Hx|[<-|[]]]; [|lia]. apply in_map_iff in Hx. destruct Hx as (z & <- & Hz). destruct (B1 c Hc) as (_ & B). specialize (B z Hz). lia.
      + intro R. left. destruct (Z.eq_dec x 0) as [->|Nx].
        * destruct f as [|c f]; [congruence|]. eexists. split; [left; reflexivity|]. apply in_or_app. right. left. auto.
        * destruct (B2 x ltac:(lia)) as (c & z & Hc & Hz & Ez). eexists. split; [apply in_map_iff; exists c; split; [reflexivity|auto]|].
          apply in_or_app. left. apply in_map_iff. exists z. auto. }
  rewrite EV. rewrite loop_cons by lia. cbn [b2f_domains bind].
  set (D := map dom_row (loop 1 (n + 1))). set (C := map fin_row f).
  assert (ED : List.concat (map (fun v => txt "d " ++ num v ++ txt " 2" ++ [LF])%list (loop (0 + 1) (n + 1))) = unlines D).
  { unfold D. rewrite <- unlines_map. f_equal. apply map_ext. intro v. unfold dom_row. rewrite <- !app_assoc. reflexivity. }
  assert (EC : List.concat (map b2f_clause f) = unlines C).
  { unfold C. rewrite <- unlines_map. f_equal. apply map_ext_in. intros c Hc. apply b2f_clause_row. intros z Hz. specialize (HI c z Hc Hz). lia. }
  rewrite ED, EC. eexists. split; [reflexivity|].
  set (L := (k1 ++ hd :: k2 ++ D ++ C)%list).
  assert (HLF : forall l, In l L -> ~ In LF l).
  { intros l Hl. unfold L in Hl. apply in_app_or in Hl. destruct Hl as [Hl|[<-|Hl]]; [apply K1'; auto|apply HN; apply in_or_app; right; left; auto|].
    apply in_app_or in Hl. destruct Hl as [Hl|Hl]; [apply K2'; auto|]. apply in_app_or in Hl. destruct Hl as [Hl|Hl]; apply in_map_iff in Hl.
    - destruct Hl as (v & <- & _). unfold dom_row. apply no_lf_app; [simpl; intuition discriminate|]. apply no_lf_app; [apply num_no_lf|simpl; intuition discriminate].
    - destruct Hl as (c & <- & _). unfold fin_row. apply in_row_lf. intros w Hw. apply in_map_iff in Hw. destruct Hw as (x & <- & _). apply lit_no_lf. }
  assert (HL' : has_lines ((t1 ++ hd ++ [LF]) ++ t2 ++ unlines D ++ unlines C) L).
  { split; [exact HLF|]. left. unfold L. rewrite unlines_app, unlines_cons, !unlines_app, <- K1, <- K2, <- !app_assoc. reflexivity. }
  replace (((t1 ++ hd ++ [LF]) ++ t2) ++ unlines D ++ unlines C)%list with ((t1 ++ hd ++ [LF]) ++ t2 ++ unlines D ++ unlines C)%list by (rewrite <- !app_assoc; reflexivity).
  split.
  - exists (txt "cnf"), L, hd, D, C. split; [auto|]. split; [exact HL'|]. split; [|split; [|split]].
    + assert (FK : forall ks, (forall l, In l ks -> is_comment l = true /\ ~ In LF l /\ Z.of_nat (length l) < m) -> filter (fun l => negb (is_comment l)) ks = []).
      { induction ks as [|k ks IHk]; intro H; auto. cbn [filter]. destruct (H k (or_introl eq_refl)) as (-> & _). cbn [negb]. apply IHk. intros; apply H; right; auto. }
      assert (FI : forall ks, (forall l, In l ks -> is_comment l = false) -> filter (fun l => negb (is_comment l)) ks = ks).
      { induction ks as [|k ks IHk]; intro H; auto. cbn [filter]. rewrite (H k (or_introl eq_refl)). cbn [negb]. f_equal. apply IHk. intros; apply H; right; auto. }
      unfold L. rewrite filter_app, (FK k1 K1'). cbn [app filter]. rewrite F2. f_equal. rewrite filter_app, (FK k2 K2'). cbn [app]. apply FI.
      intros l Hl. apply in_app_or in Hl. destruct Hl as [Hl|Hl]; apply in_map_iff in Hl.
      * destruct Hl as (v & <- & _). reflexivity.
      * destruct Hl as (c & <- & Hc). assert (OL : open_line (map finite_lit c) (fin_row c)) by (left; apply fin_row_words).
        destruct (fin_row c) as [|a r] eqn:Er; auto. pose proof (open_chars _ _ OL a (or_introl eq_refl)) as P. apply clause_char_ok in P.
        simpl. destruct (Ascii.eqb_spec a "c"); [tauto|auto].
    + split; [auto|]. assert (EL : length (clauses (finite_of n f)) = length f) by (unfold finite_of; cbn [clauses]; rewrite map_length; auto).
      assert (EN : nvars (finite_of n f) = n) by (unfold finite_of, nvars; cbn [doms]; rewrite repeat_length; lia).
      rewrite EL, EN. exact Wh.
    + unfold finite_of. cbn [doms]. unfold D. pose proof (dom_rows_lines (Z.to_nat n) 1) as P. rewrite Z2Nat.id in P by lia.
      replace (n + 1) with (1 + n) by lia. exact P.
    + unfold finite_of, C. cbn [clauses]. clear. induction f as [|c f IH]; constructor; auto. left. apply fin_row_words.
  - intro LB'. eapply lines_below_intro; [exact HL'|]. intros l Hl. 
    assert (HB : forall x, In x (pre ++ hd :: post) -> Z.of_nat (length x) < 1500) by (intros x Hx; apply (LB' _ HL x Hx)).
    assert (M : m <= 1500).
    { unfold m. clear -HB. set (xs := (pre ++ hd :: post)%list) in *. clearbody xs.
      assert (G : (fold_right Nat.max 0 (map (@length ascii) xs) < 1500)%nat); [|lia].
      induction xs as [|x xs IH]; [simpl; lia|]. cbn [map fold_right].
      pose proof (HB x (or_introl eq_refl)). specialize (IH (fun y Hy => HB y (or_intror Hy))). lia. }
    assert (HR : forall c, In c f -> exists l', In l' (pre ++ hd :: post) /\ words l' = (map num c ++ [txt "0"])%list).
    { intros c Hc. destruct (forall2_in _ _ _ HC c Hc) as (l' & Hl' & W). exists l'. split; auto. rewrite <- F3 in Hl'.
      apply filter_In in Hl'. apply in_or_app. right. right. tauto. }
    unfold L in Hl. apply in_app_or in Hl. destruct Hl as [Hl|[<-|Hl]].
    + destruct (K1' l Hl) as (_ & _ & ?). lia.
    + specialize (HB hd ltac:(apply in_or_app; right; left; auto)). lia.
    + apply in_app_or in Hl. destruct Hl as [Hl|Hl]; [destruct (K2' l Hl) as (_ & _ & ?); lia|].
      apply in_app_or in Hl. destruct Hl as [Hl|Hl]; apply in_map_iff in Hl.
      * destruct Hl as (v & <- & Hv). apply in_loop in Hv. destruct (B2 v ltac:(lia)) as (c & z & Hc & Hz & <-).
        destruct (HR c Hc) as (l' & Hl' & W). pose proof (dom_row_length z c l' W Hz). specialize (HB l' Hl'). lia.
      * destruct Hl as (c & <- & Hc). destruct (HR c Hc) as (l' & Hl' & W). pose proof (fin_row_length c l' W). specialize (HB l' Hl'). lia.
Qed.

(** ** The problem *)

Lemma finite_nvars n f : 0 <= n -> nvars (finite_of n f) = n.
Proof. intro H. unfold finite_of, nvars. cbn [doms]. rewrite repeat_length. lia. Qed.

Lemma finite_dom n f v : 1 <= v <= n -> domsize (finite_of n f) v = 2.
Proof. intro H. unfold finite_of, domsize. cbn [doms]. rewrite (proj2 (Z.leb_le 1 v)) by lia. apply (repeat_spec (Z.to_nat n)). apply nth_In. rewrite repeat_length. lia. Qed.

Lemma finite_wf n f : bool_cnf n f -> 0 <= n -> wf (finite_of n f).
Proof.
  intros (B1 & _) Hn. split.
  - intros d Hd. unfold finite_of in Hd. cbn [doms] in Hd. apply repeat_spec in Hd. lia.
  - intros c Hc. unfold finite_of in Hc. cbn [clauses] in Hc. apply in_map_iff in Hc. destruct Hc as (x & <- & Hx).
    destruct (B1 x Hx) as (N & B). split; [destruct x; [congruence|discriminate]|].
    intros l Hl. apply in_map_iff in Hl. destruct Hl as (z & <- & Hz). specialize (B z Hz).
    unfold wf_lit. rewrite finite_nvars by auto. cbn [finite_lit lvar lval]. rewrite finite_dom by auto. split; auto. destruct (0 <? z); lia.
Qed.

Lemma finite_fits n f : 0 <= n <= int_max -> Z.of_nat (length f) <= int_max -> fits_int (finite_of n f).
Proof.
  intros Hn Hf. split; [rewrite finite_nvars; lia|]. split.
  - unfold finite_of. cbn [clauses]. rewrite map_length. exact Hf.
  - intros d Hd. unfold finite_of in Hd. cbn [doms] in Hd. apply repeat_spec in Hd. subst d. vm_compute. discriminate.
Qed.

Lemma finite_models n f a : bool_cnf n f -> 0 <= n ->
  (is_model (finite_of n f) a <-> (forall v, 1 <= v <= n -> a v = 0 \/ a v = 1) /\ cnf_holds (fun v => a v =? 1) f).
Proof.
  intros (B1 & _) Hn. unfold is_model, legal. rewrite finite_nvars by auto. split.
  - intros (D & M). assert (D' : forall v, 1 <= v <= n -> a v = 0 \/ a v = 1).
    { intros v Hv. specialize (D v Hv). rewrite finite_dom in D by auto. lia. }
    split; auto. intros c Hc. destruct (M (map finite_lit c)) as (l & Hl & H).
    { unfold finite_of. cbn [clauses]. apply in_map. auto. }
    apply in_map_iff in Hl. destruct Hl as (z & <- & Hz). exists z. split; auto. destruct (B1 c Hc) as (_ & B). specialize (B z Hz).
    unfold lit_holds in H. cbn [finite_lit lvar lval leq] in H. unfold bool_holds. destruct (Z.ltb_spec 0 z) as [P|P].
    + replace (Z.abs z) with z in H by lia. apply Z.eqb_eq. auto.
    + replace (Z.abs z) with (- z) in H by lia. rewrite H. reflexivity.
  - intros (D & M). split.
    + intros v Hv. rewrite finite_dom by auto. specialize (D v Hv). lia.
    + intros c Hc. unfold finite_of in Hc. cbn [clauses] in Hc. apply in_map_iff in Hc. destruct Hc as (x & <- & Hx).
      destruct (M x Hx) as (z & Hz & H). exists (finite_lit z). split; [apply in_map; auto|].
      destruct (B1 x Hx) as (_ & B). specialize (B z Hz). specialize (D (Z.abs z) B).
      unfold lit_holds. cbn [finite_lit lvar lval leq]. unfold bool_holds in H. destruct (Z.ltb_spec 0 z) as [P|P].
      * replace (Z.abs z) with z by lia. apply Z.eqb_eq. auto.
      * replace (Z.abs z) with (- z) in * by lia. apply Z.eqb_neq in H. lia.
Qed.

Lemma finite_sat n f : bool_cnf n f -> 0 <= n -> (satisfiable (finite_of n f) <-> exists b, cnf_holds b f).
Proof.
  intros B Hn. split.
  - intros (a & Ha). apply finite_models in Ha; auto. exists (fun v => a v =? 1). tauto.
  - intros (b & Hb). exists (fun v => if b v then 1 else 0). apply finite_models; auto. split; [intros v _; destruct (b v); auto|].
    intros c Hc. destruct (Hb c Hc) as (z & Hz & H). exists z. split; auto. unfold bool_holds in *.
    destruct (0 <? z); rewrite H; reflexivity.
Qed.

(** A problem with clauses has a Boolean file without clauses: no output. *)
Theorem b2f_empty n t : bool_file n [] t -> lines_below 3000 t -> boolean2finite t = Undef BadIter.
Proof.
  intros (ls & hd & cs & HL & FL & Sh & Wh & HC) LB. inversion HC; subst cs.
  destruct (filter_first _ _ _ _ FL) as (pre & post & -> & F1 & F2 & F3).
  assert (K : forall l, In l (pre ++ hd :: post) -> ~ In LF l /\ Z.of_nat (length l) < 3000) by (intros l Hl; split; [apply (proj1 HL); auto|apply (LB _ HL); auto]).
  destruct (b2f_rows 3000 pre [] [] (mkB2f [] [] []) F1) as (t1 & k1 & E1 & _); [intros l Hl; apply K; apply in_or_app; auto|constructor|intros c z []|].
  cbn [b_vars b_data b_out app map List.concat inserts fold_left] in E1.
  assert (NH : ~ In NUL hd).
  { apply (line_no_nul _ _ Wh). intros w [<-|[<-|[<-|[<-|[]]]]]; try apply num_no_nul; simpl; intuition discriminate. }
  assert (EH : b2f_line (mkB2f [] [] t1) hd = Ok (mkB2f [] [] (t1 ++ hd ++ [LF]))).
  { unfold b2f_line. rewrite cstr_id by auto. destruct Sh as (h' & ->). reflexivity. }
  destruct (b2f_rows 3000 post [] [] (mkB2f [] [] (t1 ++ hd ++ [LF])) F3) as (t2 & k2 & E2 & _); [intros l Hl; apply K; apply in_or_app; right; right; auto|constructor|intros c z []|].
  unfold boolean2finite. rewrite (getlines_has t _ HL (LB _ HL)), foldM_app, E1. cbn [bind foldM]. rewrite EH. cbn [bind]. rewrite E2. reflexivity.
Qed.

(** ** Any input *)

Record b2f_inv (s : b2f) : Prop := {
  i_sorted : StronglySorted Z.lt (b_vars s);
  i_pos : forall v, In v (b_vars s) -> 0 <= v <= int_max;
  i_data : forall c z, In c (b_data s) -> In z c -> z <> 0 /\ In (Z.abs z) (b_vars s);
  i_out : exists ks, b_out s = unlines ks /\ forall l, In l ks -> ~ In LF l /\ (starts "c" l \/ starts "p" l) }.

Lemma b2f_word_inv x w y : b2f_word x w = Ok y -> StronglySorted Z.lt (fst x) -> (forall v, In v (fst x) -> 0 <= v <= int_max) ->
  (forall z, In z (snd x) -> z <> 0 /\ In (Z.abs z) (fst x)) ->
  StronglySorted Z.lt (fst y) /\ (forall v, In v (fst y) -> 0 <= v <= int_max) /\ (forall z, In z (snd y) -> z <> 0 /\ In (Z.abs z) (fst y)) /\
  (forall v, In v (fst x) -> In v (fst y)) /\ (w = txt "0" -> In 0 (fst y)).
Proof.
  destruct x as [vars temp]. unfold b2f_word. intros E S P D. destruct (atoi w) as [z| |] eqn:A; try discriminate. cbn [bind] in E.
  destruct (i32 (Z.abs z)) as [a| |] eqn:I; try discriminate. cbn [bind] in E. injection E as <-. cbn [fst snd] in *.
  unfold i32 in I. destruct (in_int (Z.abs z)) eqn:IN; [|discriminate]. injection I as <-. unfold in_int in IN.
  split; [apply sorted_insert; auto|]. split; [|split; [|split]].
  - intros v Hv. apply in_set_insert in Hv. destruct Hv as [->|Hv]; [unfold int_max; lia|auto].
  - intros y Hy. destruct (Z.eqb_spec z 0) as [->|N].
    + destruct (D y Hy). split; auto. apply in_set_insert. auto.
    + apply in_app_or in Hy. destruct Hy as [Hy|[<-|[]]]; [destruct (D y Hy)|]; split; auto; apply in_set_insert; auto.
  - intros v Hv. apply in_set_insert. auto.
  - intros ->. change (atoi (txt "0")) with (Ok 0) in A. injection A as <-. apply in_set_insert. auto.
Qed.

Lemma b2f_words_inv : forall ws x y, foldM b2f_word ws x = Ok y -> StronglySorted Z.lt (fst x) -> (forall v, In v (fst x) -> 0 <= v <= int_max) ->
  (forall z, In z (snd x) -> z <> 0 /\ In (Z.abs z) (fst x)) ->
  StronglySorted Z.lt (fst y) /\ (forall v, In v (fst y) -> 0 <= v <= int_max) /\ (forall z, In z (snd y) -> z <> 0 /\ In (Z.abs z) (fst y)) /\
  (forall v, In v (fst x) -> In v (fst y)) /\ (In (txt "0") ws -> In 0 (fst y)).
Proof.
  induction ws as [|w ws IH]; intros x y E S P D.
  - injection E as <-. repeat (split; [auto; fail|]). intros [].
  - cbn [foldM] in E. destruct (b2f_word x w) as [x'| |] eqn:E1; try discriminate. cbn [bind] in E.
    destruct (b2f_word_inv x w x' E1 S P D) as (S' & P' & D' & M & Z0).
    destruct (IH x' y E S' P' D') as (S2 & P2 & D2 & M2 & Z2).
    split; [exact S2|]. split; [exact P2|]. split; [exact D2|]. split; [intros v Hv; apply M2, M; auto|].
    intros [->|H]; [apply M2, Z0; auto|auto].
Qed.

Lemma b2f_line_inv s l s' : b2f_line s l = Ok s' -> ~ In LF l -> ~ In NUL l -> b2f_inv s ->
  b2f_inv s' /\ (forall v, In v (b_vars s) -> In v (b_vars s')) /\
  (is_comment l = false -> ~ starts "p" l -> In (txt "0") (words l) -> In 0 (b_vars s')).
Proof.
  intros E NL NN [S P D O].
  assert (C : (s' = mkB2f (b_vars s) (b_data s) (b_out s ++ l ++ [LF]) /\ (starts "c" l \/ starts "p" l)) \/
              exists vars temp, foldM b2f_word (words l) (b_vars s, []) = Ok (vars, temp) /\ s' = mkB2f vars (b_data s ++ [temp]) (b_out s)).
  { unfold b2f_line in E. rewrite cstr_id in E by auto. rewrite line_words_eq in E.
    assert (G : (let* x := foldM b2f_word (words l) (b_vars s, []) in let (vars, temp) := x in Ok (mkB2f vars (b_data s ++ [temp]) (b_out s))) = Ok s' ->
      exists vars temp, foldM b2f_word (words l) (b_vars s, []) = Ok (vars, temp) /\ s' = mkB2f vars (b_data s ++ [temp]) (b_out s)).
    { destruct (foldM b2f_word (words l) (b_vars s, [])) as [[v tt]| |]; cbn [bind]; try discriminate. injection 1 as <-. eauto. }
    destruct l as [|a r]; [right; auto|].
    destruct (Ascii.eqb_spec a "c") as [->|N1]; [left; injection E as <-; split; auto; left; eexists; reflexivity|].
    destruct (Ascii.eqb_spec a "p") as [->|N2]; [left; injection E as <-; split; auto; right; eexists; reflexivity|].
    right. apply G. rewrite <- E. clear -N1 N2. destruct a as [[] [] [] [] [] [] [] []]; try reflexivity; congruence. }
  destruct C as [(-> & St)|(vars & temp & E1 & ->)].
  - cbn [b_vars]. split; [|split; auto].
    + constructor; cbn [b_vars b_data b_out]; auto. destruct O as (ks & -> & HK). exists (ks ++ [l])%list. split.
      * rewrite unlines_app. unfold unlines at 3. simpl. rewrite app_nil_r. reflexivity.
      * intros x Hx. apply in_app_or in Hx. destruct Hx as [Hx|[<-|[]]]; auto.
    + intros Nc Np _. exfalso. destruct St as [(r & ->)|Sp]; [discriminate|auto].
  - destruct (b2f_words_inv _ _ _ E1) as (S2 & P2 & D2 & M2 & Z2); cbn [fst snd] in *; auto; [intros z []|].
    cbn [b_vars]. split; [|split; auto]. constructor; cbn [b_vars b_data b_out]; auto.
    intros c z Hc Hz. apply in_app_or in Hc. destruct Hc as [Hc|[<-|[]]]; [|auto]. destruct (D c z Hc Hz). auto.
Qed.

Lemma b2f_lines_inv : forall ls s s', foldM b2f_line ls s = Ok s' -> (forall l, In l ls -> ~ In LF l /\ ~ In NUL l) -> b2f_inv s ->
  b2f_inv s' /\ (forall v, In v (b_vars s) -> In v (b_vars s')) /\
  ((exists l, In l ls /\ is_comment l = false /\ ~ starts "p" l /\ In (txt "0") (words l)) -> In 0 (b_vars s')).
Proof.
  induction ls as [|l ls IH]; intros s s' E N I.
  - injection E as <-. split; [auto|]. split; [auto|]. intros (l & [] & _).
  - cbn [foldM] in E. destruct (b2f_line s l) as [s1| |] eqn:E1; try discriminate. cbn [bind] in E.
    destruct (N l (or_introl eq_refl)) as (N1 & N2). destruct (b2f_line_inv s l s1 E1 N1 N2 I) as (I1 & M1 & Z1).
    destruct (IH s1 s' E (fun x Hx => N x (or_intror Hx)) I1) as (I2 & M2 & Z2).
    split; [exact I2|]. split; [auto|]. intros (x & [<-|Hx] & H1 & H2 & H3); [auto|]. apply Z2. eauto.
Qed.

Theorem b2f_declared t t' ls : has_lines t ls -> lines_below 3000 t -> ~ In NUL t -> boolean2finite t = Ok t' ->
  (exists l, In l ls /\ is_comment l = false /\ ~ starts "p" l /\ In (txt "0") (words l)) ->
  exists ks vs cs, has_lines t' (ks ++ map dom_row vs ++ map fin_row cs) /\
    (forall l, In l ks -> starts "c" l \/ starts "p" l) /\ StronglySorted Z.lt vs /\ (forall v, In v vs -> 0 < v) /\
    (forall c z, In c cs -> In z c -> z <> 0 /\ In (Z.abs z) vs).
Proof.
  intros HL LB NN E HZ. unfold boolean2finite in E. rewrite (getlines_has t _ HL (LB _ HL)) in E.
  destruct (foldM b2f_line ls (mkB2f [] [] [])) as [s| |] eqn:EF; try discriminate. cbn [bind] in E.
  assert (HN : forall l, In l ls -> ~ In LF l /\ ~ In NUL l).
  { intros l Hl. split; [apply (proj1 HL); auto|]. intro Ha. apply NN. clear -HL Hl Ha.
    assert (U : In NUL (unlines ls)).
    { unfold unlines. apply in_concat. exists (l ++ [LF])%list. split; [apply in_map_iff; eauto|]. apply in_or_app. auto. }
    destruct HL as (_ & [->|(El & _)]); auto. rewrite <- El in U. apply in_app_or in U. destruct U as [U|[U|[]]]; [auto|discriminate]. }
  destruct (b2f_lines_inv ls _ s EF HN) as (I & _ & Z0).
  { constructor; cbn; [constructor|intros v []|intros c z []|exists []; split; [reflexivity|intros l []]]. }
  specialize (Z0 HZ). destruct I as [S P D (ks & EO & HK)].
  destruct (b_vars s) as [|x vs] eqn:EV; [destruct Z0|]. cbn [b2f_domains bind] in E. injection E as <-.
  inversion S as [|? ? S' F]; subst. rewrite Forall_forall in F.
  assert (x = 0). { destruct Z0 as [->|Z0]; auto. specialize (F 0 Z0). specialize (P x (or_introl eq_refl)). lia. } subst x.
  exists ks, vs, (b_data s). split; [|split; [|split; [|split]]].
  - assert (E1 : List.concat (map (fun v => txt "d " ++ num v ++ txt " 2" ++ [LF])%list vs) = unlines (map dom_row vs)).
    { rewrite <- unlines_map. f_equal. apply map_ext. intro v. unfold dom_row. rewrite <- !app_assoc. reflexivity. }
    assert (E2 : List.concat (map b2f_clause (b_data s)) = unlines (map fin_row (b_data s))).
    { rewrite <- unlines_map. f_equal. apply map_ext_in. intros c Hc. apply b2f_clause_row. intros z Hz. apply (D c z Hc Hz). }
    change (concat (map (fun v : Z => "d" :: " " :: num v ++ [" "; "2"; LF]) vs)) with (List.concat (map (fun v => txt "d " ++ num v ++ txt " 2" ++ [LF])%list vs)).
    rewrite E1, E2, EO. split; [|left; rewrite !unlines_app; reflexivity].
    intros l Hl. apply in_app_or in Hl. destruct Hl as [Hl|Hl]; [apply HK; auto|]. apply in_app_or in Hl. destruct Hl as [Hl|Hl]; apply in_map_iff in Hl.
    + destruct Hl as (v & <- & _). unfold dom_row. apply no_lf_app; [simpl; intuition discriminate|]. apply no_lf_app; [apply num_no_lf|simpl; intuition discriminate].
    + destruct Hl as (c & <- & _). unfold fin_row. apply in_row_lf. intros w Hw. apply in_map_iff in Hw. destruct Hw as (y & <- & _). apply lit_no_lf.
  - intros l Hl. apply HK. auto.
  - auto.
  - intros v Hv. apply (F v Hv).
  - intros c z Hc Hz. destruct (D c z Hc Hz) as (N & [H|H]); [exfalso; lia|auto].
Qed.

Theorem b2f_every_variable t t' ls : has_lines t ls -> lines_below 3000 t -> ~ In NUL t -> boolean2finite t = Ok t' ->
  (exists l, In l ls /\ is_comment l = false /\ ~ starts "p" l /\ In (txt "0") (words l)) ->
  exists ks ds cs, has_lines t' (ks ++ ds ++ cs) /\
    (forall l, In l ks -> starts "c" l \/ starts "p" l) /\ (forall l, In l ds -> exists v, domain_line v 2 l) /\
    (forall l, In l cs -> clause_row l = true) /\
    (forall l w, In l cs -> In w (words l) -> exists v d x, w = lit_text (mkLit v d true) /\ (d = 0 \/ d = 1) /\ In x ds /\ domain_line v 2 x).
Proof.
  intros HL LB NN E HZ. destruct (b2f_declared t t' ls HL LB NN E HZ) as (ks & vs & cs & H1 & H2 & _ & _ & H5).
  exists ks, (map dom_row vs), (map fin_row cs). split; [exact H1|]. split; [exact H2|]. split; [|split].
  - intros l Hl. apply in_map_iff in Hl. destruct Hl as (v & <- & _). exists v. apply dom_row_line.
  - intros l Hl. apply in_map_iff in Hl. destruct Hl as (c & <- & _).
    assert (OL : open_line (map finite_lit c) (fin_row c)) by (left; apply fin_row_words).
    destruct (fin_row c) as [|a r] eqn:Er; auto. pose proof (open_chars _ _ OL a (or_introl eq_refl)) as P. apply clause_char_ok in P.
    simpl. destruct (Ascii.eqb_spec a "c"); [tauto|]. destruct (Ascii.eqb_spec a "p"); [tauto|]. destruct (Ascii.eqb_spec a "d"); [tauto|auto].
  - intros l w Hl Hw. apply in_map_iff in Hl. destruct Hl as (c & <- & Hc). rewrite fin_row_words in Hw.
    apply in_map_iff in Hw. destruct Hw as (y & <- & Hy). apply in_map_iff in Hy. destruct Hy as (z & <- & Hz).
    destruct (H5 c z Hc Hz) as (_ & Hv). exists (Z.abs z), (if 0 <? z then 1 else 0), (dom_row (Z.abs z)). split; [reflexivity|].
    split; [destruct (0 <? z); auto|]. split; [apply in_map; auto|apply dom_row_line].
Qed.
