(** * There are solutions for four or more queens *)

From Coq Require Import Ascii String Permutation.
From Verif Require Import Spec Outcome State Observe TextSpec ModelText CliSpec ModelCli EncodeSpec ModelEncode ModelMenu ModelMain MainSpec MainFacts
  BenchSpec ModelBench Encode Bench Bench2 Bench3 BenchRuns.
#[local] Open Scope char_scope.
#[local] Open Scope list_scope.
#[local] Open Scope Z_scope.

(** Boards of [2 * m] queens: [row_a] if [m] is not 1 modulo 3, else [row_b].  No queen is on the
    diagonal, so that one more can be put into the corner. *)
Definition row_a (m x : Z) : Z := if x <=? m then 2 * x - 1 else 2 * x - 2 * m - 2.
Definition row_b1 (m j : Z) : Z := if 2 * j <? m + 3 then 2 * j + m - 3 else 2 * j - m - 3.
Definition row_b (m x : Z) : Z := if x <=? m then row_b1 m x else 2 * m - 1 - row_b1 m (2 * m + 1 - x).
Definition good_board (n : Z) (a : Z -> Z) : Prop := (forall x, 1 <= x <= n -> 0 <= a x < n) /\ pairwise n a queens_apart.
Ltac cmp := repeat match goal with |- context [?a <=? ?b] => destruct (Z.leb_spec a b) | |- context [?a <? ?b] => destruct (Z.ltb_spec a b) end.
Lemma a_ok m q r : m = 3 * q + r -> (r = 0 \/ r = 2) -> 1 <= m -> good_board (2 * m) (row_a m) /\ forall x, 1 <= x <= 2 * m -> row_a m x <> x - 1.
Proof.
  intros M R P. split; [split|].
  - intros x H. unfold row_a. cmp; lia.
  - intros x y Hx Hy N. unfold queens_apart, queen_attacks, row_a. cmp; lia.
  - intros x H. unfold row_a. cmp; lia.
Qed.
Lemma b_ok m q : m = 3 * q + 1 -> 1 <= q -> good_board (2 * m) (row_b m) /\ forall x, 1 <= x <= 2 * m -> row_b m x <> x - 1.
Proof.
  intros M P. split; [split|].
  - intros x H. unfold row_b, row_b1. cmp; lia.
  - intros x y Hx Hy N. unfold queens_apart, queen_attacks, row_b, row_b1. cmp; lia.
  - intros x H. unfold row_b, row_b1. cmp; lia.
Qed.
Lemma even_ok m : 2 <= m -> exists a, good_board (2 * m) a /\ forall x, 1 <= x <= 2 * m -> a x <> x - 1.
Proof.
  intro H. pose proof (Z.div_mod m 3 ltac:(lia)). pose proof (Z.mod_pos_bound m 3 ltac:(lia)).
  destruct (Z.eq_dec (m mod 3) 1) as [E|E]; [exists (row_b m); apply (b_ok m (m / 3)); lia|exists (row_a m); apply (a_ok m (m / 3) (m mod 3)); lia].
Qed.
Lemma queens_solvable n : 4 <= n -> exists a, good_board n a.
Proof.
  intro H. pose proof (Z.div_mod n 2 ltac:(lia)). pose proof (Z.mod_pos_bound n 2 ltac:(lia)). set (m := n / 2) in *.
  destruct (even_ok m ltac:(lia)) as (a & (A & B) & D). destruct (Z.eq_dec (n mod 2) 0) as [E|E].
  - exists a. replace n with (2 * m) by lia. split; assumption.
  - exists (fun x => if x =? n then n - 1 else a x). replace n with (2 * m + 1) in * by lia. split.
    + intros x Hx. destruct (Z.eqb_spec x (2 * m + 1)); [lia|]. specialize (A x ltac:(lia)). lia.
    + intros x y Hx Hy N. unfold queens_apart, queen_attacks. destruct (Z.eqb_spec x (2 * m + 1)), (Z.eqb_spec y (2 * m + 1)); try lia.
      * pose proof (A y ltac:(lia)). pose proof (D y ltac:(lia)). lia.
      * pose proof (A x ltac:(lia)). pose proof (D x ltac:(lia)). lia.
      * apply (B x y); lia.
Qed.

(** Two and three queens have none. *)
Lemma few_queens n a : 2 <= n <= 3 -> good_board n a -> False.
Proof.
  intros Hn (A & B). assert (C : n = 2 \/ n = 3) by lia. unfold pairwise, queens_apart, queen_attacks in B. destruct C as [-> | ->].
  - pose proof (A 1 ltac:(lia)). pose proof (A 2 ltac:(lia)). pose proof (B 1 2 ltac:(lia) ltac:(lia) ltac:(lia)). lia.
  - pose proof (A 1 ltac:(lia)). pose proof (A 2 ltac:(lia)). pose proof (A 3 ltac:(lia)).
    pose proof (B 1 2 ltac:(lia) ltac:(lia) ltac:(lia)). pose proof (B 1 3 ltac:(lia) ltac:(lia) ltac:(lia)). pose proof (B 2 3 ltac:(lia) ltac:(lia) ltac:(lia)). lia.
Qed.

Lemma queens_decided args c m w f n :
  dispatch args = Ok (SolveFinite c m) -> c_file c = Some f -> files_of w f = Some (queens_file n) -> 0 <= c_clause_size c -> missing_return w = true ->
  2 <= n <= 800 ->
  exists N v rest ds us bs es k r,
    (v = txt "SAT" /\ 4 <= n /\ (exists a ls, good_board n a /\ rest = model_lines (c_log c) ls /\
        if lazy_of c then forall l, In l ls -> lit_holds a l else Permutation ls (lines_of n a)) \/
     v = txt "UNSAT" /\ n < 4 /\ rest = [] \/
     v = txt "TIMEOUT" /\ rest = [] /\ exists i, late_at w (c_time c) i = true) /\
    forall fuel, (N <= fuel)%nat ->
      main fuel args w =
      Ok (mkRan (solver_screen f (time1 w) (time2 w) (time3 w) ((if c_log c then logged w else []) ++ early c m v)
                   (answer_lines v ds us bs es n k r ++ rest)) 0 (files_of w)).
Proof.
  intros D F T C M Hn.
  destruct (puzzle_run args c m w f (queens_file n) _ n n _ (queens_describes n ltac:(lia)) (queens_ready n Hn) D F T C M) as (N & v & rest & ds & us & bs & es & k & r & A & E).
  exists N, v, rest, ds, us, bs, es, k, r. split; [|exact E]. destruct A as [(-> & a & ls & A1 & A2 & A3 & A4)|[(-> & -> & A)|(-> & -> & A)]].
  - left. split; [reflexivity|]. split; [|exists a, ls; split; [split|]; auto]. destruct (Z_lt_ge_dec n 4) as [L|L]; [|lia].
    exfalso. apply (few_queens n a); [lia|split; auto].
  - right. left. split; [reflexivity|]. split; [|reflexivity]. destruct (Z_lt_ge_dec n 4) as [L|L]; [lia|].
    destruct (queens_solvable n ltac:(lia)) as (a & G1 & G2). exfalso. exact (A a G1 G2).
  - right. right. auto.
Qed.

(** The boards of nqueens_sat.cc. *)
Lemma board_onto n a : 0 <= n -> good_board n a -> forall j, 0 <= j < n -> exists i, 0 <= i < n /\ a (i + 1) = j.
Proof.
  intros Hn (A & B) j Hj. set (l := map (fun i => a (i + 1)) (loop 0 n)).
  assert (ND : NoDup l).
  { unfold l. assert (G : forall xs, NoDup xs -> (forall x, In x xs -> 0 <= x < n) -> NoDup (map (fun i => a (i + 1)) xs)).
    { induction xs as [|x xs IH]; intros H R; [constructor|]. inversion H as [|? ? H1 H2]; subst. cbn [map]. constructor; [|apply IH; auto; intros; apply R; right; auto].
      intro I. apply in_map_iff in I. destruct I as (y & E & I). pose proof (R x (or_introl eq_refl)). pose proof (R y (or_intror I)).
      assert (x <> y) by congruence. apply (B (y + 1) (x + 1)); try lia. right. left. exact E. }
    apply G; [apply Bench2.loop_nodup|]. intros x I. apply in_loop in I. lia. }
  assert (IN : incl l (loop 0 n)).
  { intros y I. apply in_map_iff in I. destruct I as (x & <- & I). apply in_loop in I. apply in_loop. specialize (A (x + 1) ltac:(lia)). lia. }
  assert (I : In j l).
  { refine (NoDup_length_incl ND _ IN j _); [unfold l; rewrite map_length; lia|apply in_loop; lia]. }
  apply in_map_iff in I. destruct I as (i & E & I). apply in_loop in I. exists i. split; [lia|exact E].
Qed.
Lemma board_square n a : 0 <= n -> good_board n a -> queens_board n (fun i j => a (i + 1) =? j).
Proof.
  intros Hn G. pose proof (board_onto n a Hn G) as O. destruct G as (A & B). split; [|split].
  - intros i Hi. exists (a (i + 1)). split; [apply A; lia|apply Z.eqb_refl].
  - intros j Hj. destruct (O j Hj) as (i & Hi & E). exists i. split; [exact Hi|apply Z.eqb_eq; exact E].
  - intros i j k l Hi Hj Hk Hl E1 E2 N Q. apply Z.eqb_eq in E1, E2. assert (i <> k) by (intros ->; apply N; congruence).
    apply (B (i + 1) (k + 1)); try lia. rewrite E1, E2. unfold queen_attacks in *. lia.
Qed.
Lemma square_few n q : 2 <= n <= 3 -> queens_board n q -> False.
Proof.
  intros Hn (R & _ & D). assert (G : exists a, good_board n a).
  { assert (CH : exists h : Z -> Z, forall i, 0 <= i < n -> 0 <= h i < n /\ q i (h i) = true).
    { destruct (R 0 ltac:(lia)) as (h0 & H0). destruct (R 1 ltac:(lia)) as (h1 & H1). destruct (R (n - 1) ltac:(lia)) as (h2 & H2).
      exists (fun i => if i =? 0 then h0 else if i =? 1 then h1 else h2). intros i Hi.
      destruct (Z.eqb_spec i 0) as [->|]; [exact H0|]. destruct (Z.eqb_spec i 1) as [->|]; [exact H1|]. replace i with (n - 1) by lia. exact H2. }
    destruct CH as (h & H). exists (fun x => h (x - 1)). split.
    - intros x Hx. apply H. lia.
    - intros x y Hx Hy N Q. destruct (H (x - 1) ltac:(lia)) as (X1 & X2). destruct (H (y - 1) ltac:(lia)) as (Y1 & Y2).
      apply (D (x - 1) (h (x - 1)) (y - 1) (h (y - 1))); try lia; auto; [intro E; injection E; lia|]. unfold queen_attacks in *. lia. }
  destruct G as (a & G). exact (few_queens n a Hn G).
Qed.
