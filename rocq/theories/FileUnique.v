(** * The problem of a file is unique; the length of numbers *)

From Coq Require Import Ascii String DecimalString Decimal DecimalFacts DecimalPos.
From Verif Require Import Spec Outcome State TextSpec ModelText ModelRead EncodeSpec ModelEncode Text Read Encode EncodeMore.
#[local] Open Scope char_scope.
#[local] Open Scope Z_scope.

Lemma lit_text_inj l l' : lit_text l = lit_text l' -> l = l'.
Proof.
  destruct l as [v d e], l' as [v' d' e']. unfold lit_text. cbn [lvar lval leq]. intro H.
  assert (S : forall (e : bool) d, stops (txt (if e then "=" else "!=") ++ num d)) by (intros [] ?; reflexivity).
  pose proof (scan_num v _ (S e d)) as A. rewrite H in A. rewrite (scan_num v' _ (S e' d')) in A. injection A as <- A.
  destruct e, e'; cbn in A; try discriminate; injection A as A; apply num_inj in A; congruence.
Qed.

Lemma lit_not_zero l : lit_text l <> txt "0".
Proof.
  intro H. assert (I : In "=" (lit_text l)).
  { unfold lit_text. apply in_or_app. right. apply in_or_app. left. destruct (leq l); simpl; auto. }
  rewrite H in I. destruct I as [I|[]]. discriminate.
Qed.

Lemma open_line_unique c c' l : open_line c l -> open_line c' l -> c = c'.
Proof.
  assert (I : forall a b, map lit_text a = map lit_text b -> a = b) by (intros a b; apply map_inj_in; intros; apply lit_text_inj; auto).
  assert (N : forall a b, map lit_text a <> (map lit_text b ++ [txt "0"])%list).
  { intros a b E. assert (In (txt "0") (map lit_text a)) by (rewrite E; apply in_or_app; right; left; auto).
    apply in_map_iff in H. destruct H as (x & Hx & _). apply lit_not_zero in Hx. auto. }
  intros [H|H] [H'|H']; unfold clause_line in *; rewrite H in H'; auto.
  - apply N in H'. destruct H'.
  - symmetry in H'. apply N in H'. destruct H'.
  - apply app_inj_tail in H'. apply I. tauto.
Qed.

Lemma domain_lines_length : forall ds v ls, domain_lines v ds ls -> length ls = length ds.
Proof. induction ds as [|d ds IH]; intros v [|l ls] H; simpl in *; auto; try tauto. f_equal. apply (IH (v + 1)). tauto. Qed.

Lemma domain_lines_unique : forall ds ds' v ls, domain_lines v ds ls -> domain_lines v ds' ls -> ds = ds'.
Proof.
  induction ds as [|d ds IH]; intros [|d' ds'] v [|l ls] H H'; simpl in *; auto; try tauto.
  destruct H as ((_ & H) & HH), H' as ((_ & H') & HH'). rewrite H in H'. injection H' as E. apply num_inj in E. f_equal; auto. apply (IH ds' (v + 1) ls); auto.
Qed.

Lemma app_same_length {A} : forall (a b a' b' : list A), length a = length a' -> (a ++ b)%list = (a' ++ b')%list -> a = a' /\ b = b'.
Proof. induction a as [|x a IH]; intros b [|y a'] b' L E; simpl in *; try discriminate; auto. injection E as -> E. destruct (IH b a' b'); auto. subst; auto. Qed.

Theorem readable_unique p p' t : readable p t -> readable p' t -> p = p'.
Proof.
  intros (f & ls & hd & ds & cs & _ & L & F & (_ & H) & D & C) (f' & ls' & hd' & ds' & cs' & _ & L' & F' & (_ & H') & D' & C').
  pose proof (has_lines_unique _ _ _ L L') as <-. rewrite F in F'. injection F' as <- E. rewrite H in H'. injection H' as Ef En Ec.
  apply num_inj in En. unfold nvars in En.
  destruct (app_same_length ds cs ds' cs') as (<- & <-); auto.
  { rewrite (domain_lines_length _ _ _ D), (domain_lines_length _ _ _ D'). lia. }
  assert (E1 : doms p = doms p') by apply (domain_lines_unique _ _ _ _ D D').
  assert (E2 : clauses p = clauses p').
  { apply (rows_unique (fun _ => True) open_line) with (cs := cs); auto. intros c c' l _ _. apply open_line_unique. }
  destruct p, p'. cbn in *. congruence.
Qed.

(** ** Lengths *)

Fixpoint ulen (d : uint) : nat :=
  match d with
  | Nil => 0%nat
  | D0 d | D1 d | D2 d | D3 d | D4 d | D5 d | D6 d | D7 d | D8 d | D9 d => S (ulen d)
  end.

Lemma utext_length d : length (utext d) = ulen d.
Proof. unfold utext, txt. induction d; simpl; auto. Qed.

Lemma acc_lower d : forall p, Z.pos p * 10 ^ Z.of_nat (ulen d) <= Z.pos (Pos.of_uint_acc d p).
Proof.
  induction d; intro p; cbn [Pos.of_uint_acc ulen]; [simpl; lia|..];
    (rewrite Nat2Z.inj_succ, Z.pow_succ_r by lia; eapply Z.le_trans; [|apply IHd]; nia).
Qed.

Lemma to_uint_head p d : Pos.to_uint p <> D0 d.
Proof.
  intro H. pose proof (Unsigned.of_to p) as A.
  pose proof (Unsigned.to_of (Pos.to_uint p)) as B. rewrite A in B. cbn in B. rewrite H in B, A. cbn in A, B.
  unfold unorm in B. cbn in B. destruct (nzhead d) eqn:E; try (injection B as B; subst d; simpl in A; discriminate); try discriminate.
  pose proof (nzhead_nonzero d u) as C. congruence.
Qed.

Lemma num_length z k : 0 <= z < 10 ^ Z.of_nat k -> (1 <= k)%nat -> (length (num z) <= k)%nat.
Proof.
  intros H Hk. destruct z as [|q|q]; [exact Hk| |lia]. rewrite num_pos, utext_length.
  pose proof (Unsigned.of_to q) as A.
  destruct (Pos.to_uint q) as [|d|d|d|d|d|d|d|d|d|d] eqn:E; [cbn; lia|destruct (to_uint_head q d E)|..]; cbn in A; injection A as A; cbn [ulen];
    (match type of A with Pos.of_uint_acc _ ?p = _ => pose proof (acc_lower d p) as B; rewrite A in B end;
     assert (L : 10 ^ Z.of_nat (ulen d) < 10 ^ Z.of_nat k) by lia; apply Z.pow_lt_mono_r_iff in L; lia).
Qed.

Lemma num_length_int z : 0 <= z <= int_max -> (length (num z) <= 10)%nat.
Proof. intro H. apply num_length; [|lia]. unfold int_max in H. change (10 ^ Z.of_nat 10) with 10000000000. lia. Qed.
