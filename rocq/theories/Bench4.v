(** * The Boolean queens through the converter *)

From Coq Require Import Ascii String.
From Verif Require Import Spec Outcome State ModelBuild ModelSearch Base TextSpec ModelText ModelRead EncodeSpec ModelEncode ModelB2f
  Text Read Encode EncodeMore FileUnique GenText B2f Keep BenchSpec ModelBench Bench Bench2 Bench3.
#[local] Open Scope char_scope.
#[local] Open Scope list_scope.
#[local] Open Scope Z_scope.

Lemma num_length_abs z k : Z.abs z < 10 ^ Z.of_nat k -> (1 <= k)%nat -> (length (num z) <= k + 1)%nat.
Proof.
  intros H Hk. destruct z as [|q|q].
  - change (length (num 0)) with 1%nat. lia.
  - pose proof (num_length (Z.pos q) k ltac:(lia) Hk). lia.
  - assert (E : num (Z.neg q) = "-" :: num (Z.pos q)) by reflexivity. rewrite E. cbn [length]. pose proof (num_length (Z.pos q) k ltac:(lia) Hk). lia.
Qed.

Lemma less_equal_length vs : Z.of_nat (length (less_equal_one vs)) <= Z.of_nat (length vs) * Z.of_nat (length vs).
Proof.
  unfold less_equal_one. rewrite <- Nat2Z.inj_mul. apply inj_le.
  pose proof (loop_length 0 (Z.of_nat (length vs) - 1)) as L.
  etransitivity; [apply (flat_map_bound _ (length vs))|apply Nat.mul_le_mono_r; lia]. intros j Hj. apply in_loop in Hj. rewrite map_length.
  pose proof (loop_length (j + 1) (Z.of_nat (length vs))). lia.
Qed.

Lemma family_length f lo hi (M : Z -> Z) N : 0 <= lo -> hi <= N -> 0 <= N -> (forall i, lo <= i < hi -> 0 <= M i <= N) ->
  Z.of_nat (length (flat_map (fun i => less_equal_one (map (f i) (loop 0 (M i)))) (loop lo hi))) <= N * (N * N).
Proof.
  intros H1 H2 H3 H4. pose proof (flat_map_bound (fun i => less_equal_one (map (f i) (loop 0 (M i)))) (Z.to_nat (N * N)) (loop lo hi)) as B.
  assert (C : forall i, In i (loop lo hi) -> (length (less_equal_one (map (f i) (loop 0 (M i)))) <= Z.to_nat (N * N))%nat).
  { intros i Hi. apply in_loop in Hi. pose proof (less_equal_length (map (f i) (loop 0 (M i)))) as L. rewrite map_length, loop_length in L.
    specialize (H4 i Hi). assert (Z.max 0 (M i - 0) * Z.max 0 (M i - 0) <= N * N) by nia. lia. }
  specialize (B C). pose proof (loop_length lo hi) as L. apply inj_le in B. rewrite Nat2Z.inj_mul, L in B.
  rewrite Z2Nat.id in B by nia. assert (Z.max 0 (hi - lo) <= N) by lia. nia.
Qed.

Lemma rows_length f N : 0 <= N -> Z.of_nat (length (flat_map (fun i => equal_one (map (f i) (loop 0 N))) (loop 0 N))) <= N * (N * N + 1).
Proof.
  intro HN. pose proof (flat_map_bound (fun i => equal_one (map (f i) (loop 0 N))) (Z.to_nat (N * N + 1)) (loop 0 N)) as B.
  assert (C : forall i : Z, In i (loop 0 N) -> (length (equal_one (map (f i) (loop 0 N))) <= Z.to_nat (N * N + 1))%nat).
  { intros i _. unfold equal_one. cbn [length]. pose proof (less_equal_length (map (f i) (loop 0 N))) as L. rewrite map_length, loop_length in L.
    assert (Z.max 0 (N - 0) * Z.max 0 (N - 0) <= N * N) by nia. lia. }
  specialize (B C). pose proof (loop_length 0 N) as L. apply inj_le in B. rewrite Nat2Z.inj_mul, L in B. rewrite Z2Nat.id in B by nia. nia.
Qed.

Lemma sat_length N : 0 <= N -> Z.of_nat (length (sat_cnf N)) <= 6 * N ^ 3 + 2 * N.
Proof.
  intro HN. unfold sat_cnf. rewrite !app_length, !Nat2Z.inj_add.
  pose proof (rows_length (fun i j => var_name N i j) N HN). pose proof (rows_length (fun i j => var_name N j i) N HN).
  pose proof (family_length (fun i j => var_name N j (i + j)) 0 (N - 1) (fun i => N - i) N ltac:(lia) ltac:(lia) HN ltac:(intros; lia)).
  pose proof (family_length (fun i j => var_name N (j + i) j) 1 (N - 1) (fun i => N - i) N ltac:(lia) ltac:(lia) HN ltac:(intros; lia)).
  pose proof (family_length (fun i j => var_name N j (N - 1 - (i + j))) 0 (N - 1) (fun i => N - i) N ltac:(lia) ltac:(lia) HN ltac:(intros; lia)).
  pose proof (family_length (fun i j => var_name N (j + i) (N - 1 - j)) 1 (N - 1) (fun i => N - i) N ltac:(lia) ltac:(lia) HN ltac:(intros; lia)).
  change (N ^ 3) with (N * (N * (N * 1))). lia.
Qed.

Lemma sat_few N : 0 <= N <= 200 -> Z.of_nat (length (sat_cnf N)) <= int_max.
Proof.
  intro HN. pose proof (sat_length N ltac:(lia)). assert (N ^ 3 <= 200 ^ 3) by (apply Z.pow_le_mono_l; lia). unfold int_max. lia.
Qed.

Lemma sat_clause_length N c : 1 <= N -> In c (sat_cnf N) -> Z.of_nat (length c) <= N \/ length c = 2%nat.
Proof.
  intros HN Hc. apply in_sat in Hc. pose proof (loop_length 0 N) as L.
  destruct Hc as [(i & Hi & [->|(j & k & _ & _ & _ & ->)])|[(i & Hi & [->|(j & k & _ & _ & _ & ->)])|[(i & j & k & _ & _ & _ & _ & ->)|[(i & j & k & _ & _ & _ & _ & ->)|
      [(i & j & k & _ & _ & _ & _ & ->)|(i & j & k & _ & _ & _ & _ & ->)]]]]]; auto; rewrite map_length; lia.
Qed.

Lemma sat_short N : 1 <= N <= 200 -> lines_below 1500 (sat_body N).
Proof.
  intro HN. eapply lines_below_intro; [apply sat_has|]. intros l [<-|Hl].
  - assert (Z.of_nat (length (hline (N * N) (Z.of_nat (length (sat_cnf N))))) <= 27); [|lia].
    unfold hline. rewrite !app_length. cbn [txt list_ascii_of_string length]. pose proof (sat_few N ltac:(lia)).
    pose proof (num_length_int (N * N) ltac:(unfold int_max; nia)). pose proof (num_length_int (Z.of_nat (length (sat_cnf N))) ltac:(lia)). lia.
  - apply in_map_iff in Hl. destruct Hl as (c & <- & Hc). unfold zline. rewrite flat_nums, app_length.
    assert (R : (length (List.concat (map (fun w => w ++ [SP]) (map num c))) <= length (map num c) * (6 + 1))%nat).
    { apply row_length. intros w Hw. apply in_map_iff in Hw. destruct Hw as (z & <- & Hz).
      apply (num_length_abs z 5); [|lia]. destruct (sat_bool N ltac:(lia)) as (B & _). destruct (B c Hc) as (_ & B'). specialize (B' z Hz).
      change (10 ^ Z.of_nat 5) with 100000. nia. }
    rewrite map_length in R. cbn [txt list_ascii_of_string length]. destruct (sat_clause_length N c ltac:(lia) Hc); lia.
Qed.

Lemma sat_bool_file N : bool_file (N * N) (sat_cnf N) (sat_body N).
Proof.
  eexists _, _, (map zline (sat_cnf N)). split; [apply sat_has|]. split; [|split; [|split; [apply hline_words|]]].
  - cbn [filter]. change (is_comment (hline _ _)) with false. cbn [negb]. f_equal.
    assert (K : forall l, In l (map zline (sat_cnf N)) -> is_comment l = false).
    { intros l Hl. apply in_map_iff in Hl. destruct Hl as (c & <- & _). unfold zline. rewrite flat_nums. destruct c as [|z c]; [reflexivity|].
      cbn [map List.concat]. rewrite <- !app_assoc. pose proof (num_solid z) as (Nz & _). pose proof (num_not_nul z "c") as NN.
      destruct (num z) as [|a w] eqn:E; [congruence|]. cbn [app is_comment]. destruct (Ascii.eqb_spec a "c") as [->|]; auto.
      exfalso. destruct NN as [NN|NN]; [left; auto|discriminate|discriminate]. }
    revert K. generalize (map zline (sat_cnf N)). induction l as [|l ls IH]; intro K; auto. cbn [filter]. rewrite K by (left; auto). cbn [negb]. f_equal. apply IH. intros; apply K; right; auto.
  - eexists. reflexivity.
  - induction (sat_cnf N) as [|c f IH]; constructor; auto. apply zline_words.
Qed.

(** ** A blank line at the end of the Boolean file *)

Definition ends_lf (t : text) : Prop := t = [] \/ exists u, t = u ++ [LF].
Lemma ends_app a b : ends_lf a -> ends_lf b -> ends_lf (a ++ b).
Proof.
  intros [->|(u & ->)] [->|(v & ->)].
  - left. auto.
  - right. exists v. auto.
  - right. exists u. rewrite app_nil_r. auto.
  - right. exists ((u ++ [LF]) ++ v). rewrite app_assoc. auto.
Qed.
Lemma ends_concat l : (forall t, In t l -> ends_lf t) -> ends_lf (List.concat l).
Proof. induction l as [|t l IH]; intro H; [left; auto|]. cbn. apply ends_app; [apply H; left; auto|apply IH; intros; apply H; right; auto]. Qed.
Lemma ends_snoc u : ends_lf (u ++ [LF]).
Proof. right. exists u. auto. Qed.

Lemma b2f_line_ends s l s' : b2f_line s l = Ok s' -> ends_lf (b_out s) -> ends_lf (b_out s').
Proof.
  assert (G : (let* x := foldM b2f_word (line_words [] (cstr l)) (b_vars s, []) in
     let (vars, temp) := x in Ok (mkB2f vars (b_data s ++ [temp]) (b_out s))) = Ok s' -> ends_lf (b_out s) -> ends_lf (b_out s')).
  { intros E H. apply bind_ok in E. destruct E as ((vars, temp) & _ & E). injection E as <-. exact H. }
  assert (K : Ok (mkB2f (b_vars s) (b_data s) (b_out s ++ cstr l ++ [LF])) = Ok s' -> ends_lf (b_out s) -> ends_lf (b_out s')).
  { intros E H. injection E as <-. cbn. apply ends_app; auto. apply ends_snoc. }
  unfold b2f_line. cbv zeta. destruct (cstr l) as [|a r]; [exact G|].
  destruct a as [[] [] [] [] [] [] [] []]; first [exact G|exact K].
Qed.

Lemma b2f_ends t t' : boolean2finite t = Ok t' -> ends_lf t'.
Proof.
  unfold boolean2finite. intro E. apply bind_ok in E. destruct E as (s & E1 & E). apply bind_ok in E. destruct E as (d & E2 & E). injection E as <-.
  assert (H : ends_lf (b_out s)).
  { revert E1. apply (foldM_inv_ok b2f_line (fun x => ends_lf (b_out x))); [left; reflexivity|]. intros x a b _ Q Eb. eapply b2f_line_ends; eauto. }
  apply ends_app; auto. apply ends_app.
  - unfold b2f_domains in E2. destruct (b_vars s) as [|v0 vs]; [discriminate|].
    assert (Ed : d = List.concat (map (fun v => txt "d " ++ num v ++ txt " 2" ++ [LF]) vs)) by congruence. rewrite Ed. apply ends_concat. intros u Hu. apply in_map_iff in Hu.
    destruct Hu as (v & <- & _). rewrite !app_assoc. apply ends_snoc.
  - apply ends_concat. intros u Hu. apply in_map_iff in Hu. destruct Hu as (c & <- & _). apply ends_snoc.
Qed.

Lemma b2f_blank ls t' : (forall l, In l ls -> ~ In LF l) -> (forall l, In l ls -> short l) ->
  boolean2finite (unlines ls) = Ok t' -> boolean2finite (unlines ls ++ [LF]) = Ok (t' ++ [LF]).
Proof.
  intros NL S E. unfold boolean2finite in *. rewrite getlines_unlines in E by auto. rewrite getlines_unlines_app by auto. rewrite foldM_app.
  apply bind_ok in E. destruct E as (s & E1 & E). rewrite E1. apply bind_ok in E. destruct E as (d & E2 & E). injection E as <-.
  cbn [bind]. change (foldM b2f_line (getlines [] [LF]) s) with (Ok (mkB2f (b_vars s) (b_data s ++ [[]]) (b_out s))). cbn [bind b_vars b_data b_out]. rewrite E2. cbn [bind].
  rewrite map_app, concat_app. cbn [map List.concat b2f_clause app]. rewrite <- !app_assoc. reflexivity.
Qed.

Lemma has_lines_lf u ls : has_lines (u ++ [LF]) ls -> u ++ [LF] = unlines ls.
Proof.
  intros (NL & [E|(E & La)]); auto. exfalso. destruct ls as [|l ls _] using rev_ind; [destruct u; discriminate|]. rewrite last_last in La.
  rewrite unlines_app in E. unfold unlines at 2 in E. cbn [map List.concat] in E. rewrite app_nil_r, !app_assoc in E. apply app_inj_tail in E. destruct E as (E & _).
  destruct l as [|a l _] using rev_ind; [congruence|]. rewrite app_assoc in E. apply app_inj_tail in E. destruct E as (_ & E).
  apply (NL (l ++ [a])); [apply in_or_app; right; left; auto|]. apply in_or_app. right. left. auto.
Qed.

Theorem queens_converted N : 1 <= N <= 200 ->
  exists t', boolean2finite (sat_body N) = Ok t' /\ boolean2finite (sat_file N) = Ok (t' ++ [LF]) /\
    readable (finite_of (N * N) (sat_cnf N)) t' /\ lines_below 3000 t' /\ exists ls, has_lines t' ls /\ t' = unlines ls.
Proof.
  intro HN. assert (F : sat_cnf N <> []).
  { intro E. pose proof (in_sat N (map (fun j => var_name N 0 j) (loop 0 N))) as I. rewrite E in I. apply I. left. exists 0. split; [lia|auto]. }
  assert (L3 : lines_below 3000 (sat_body N)).
  { intros ls H l Hl. pose proof (sat_short N HN ls H l Hl). lia. }
  destruct (b2f_written (N * N) (sat_cnf N) (sat_body N)) as (t' & E & R & L); auto.
  - apply sat_bool; lia.
  - unfold int_max. nia.
  - apply sat_bool_file.
  - exists t'. split; auto. split; [|split; [auto|split; [apply L, sat_short; auto|]]].
    + rewrite sat_text. unfold sat_body in *. apply b2f_blank; auto.
      * intros l Hl. destruct (sat_has N) as (NL & _). apply NL; auto.
      * intros l Hl. apply (L3 _ (sat_has N)); auto.
    + destruct R as (f & ls & hd & ds & cs & _ & HL & FL & _). exists ls. split; auto. destruct (b2f_ends _ _ E) as [->|(u & ->)]; [|apply has_lines_lf; auto].
      destruct HL as (_ & [HL|(HL & La)]); auto. exfalso. destruct ls as [|l1 [|l2 ls]]; try discriminate.
      * unfold unlines in HL. cbn in HL. rewrite app_nil_r in HL. destruct l1 as [|a [|b l1]]; discriminate || (cbn in La; congruence).
      * rewrite !unlines_cons in HL. destruct l1 as [|a [|b l1]]; [destruct l2; discriminate|discriminate|discriminate].
Qed.
