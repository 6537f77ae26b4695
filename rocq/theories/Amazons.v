(** * Which amazons problems have solutions *)

From Coq Require Import Ascii String Permutation.
From Verif Require Import Spec Outcome State Observe TextSpec ModelText CliSpec ModelCli EncodeSpec ModelEncode ModelMenu ModelMain MainSpec MainFacts
  BenchSpec ModelBench Encode Bench Bench2 Bench4 BenchRuns ManyAmazons.
#[local] Open Scope char_scope.
#[local] Open Scope list_scope.
#[local] Open Scope Z_scope.

Definition good_amazons (n : Z) (a : assignment) : Prop := (forall x, 1 <= x <= n -> 0 <= a x < n) /\ pairwise n a amazons_apart.

(** ** Search *)

Definition hits (dx dy : Z) : bool := (dy =? 0) || (dx =? dy) || (dx =? 1) && (dy =? 2) || (dx =? 2) && (dy =? 1).
(** [l]: the rows of the columns before, the nearest first. *)
Fixpoint clear (dx r : Z) (l : list Z) : bool :=
  match l with [] => true | c :: l' => if hits dx (Z.abs (r - c)) then false else clear (dx + 1) r l' end.
Fixpoint search (k : nat) (n : Z) (l : list Z) : bool :=
  match k with
  | O => true
  | S k' => existsb (fun r => if clear 1 r l then search k' n (r :: l) else false) (loop 0 n)
  end.
Fixpoint prefix (a : assignment) (m : nat) : list Z := match m with O => [] | S m' => a (Z.of_nat m) :: prefix a m' end.

Lemma hits_not x h y k : x < y -> amazons_apart y k x h -> hits (y - x) (Z.abs (k - h)) = false.
Proof.
  intros L (Q & K). unfold queen_attacks, knight_attacks in *. unfold hits.
  destruct (Z.eqb_spec (Z.abs (k - h)) 0), (Z.eqb_spec (y - x) (Z.abs (k - h))), (Z.eqb_spec (y - x) 1), (Z.eqb_spec (Z.abs (k - h)) 2), (Z.eqb_spec (y - x) 2), (Z.eqb_spec (Z.abs (k - h)) 1);
    cbn; try reflexivity; exfalso; lia.
Qed.
Lemma clear_prefix n a : good_amazons n a -> forall m X, Z.of_nat m < X <= n -> clear (X - Z.of_nat m) (a X) (prefix a m) = true.
Proof.
  intros (_ & B). induction m as [|m IH]; intros X H; [reflexivity|]. cbn [prefix clear].
  rewrite (hits_not (Z.of_nat (S m)) (a (Z.of_nat (S m))) X (a X)); [|lia|apply B; lia].
  replace (X - Z.of_nat (S m) + 1) with (X - Z.of_nat m) by lia. apply IH. lia.
Qed.
Lemma search_finds n a : good_amazons n a -> forall k m, Z.of_nat k + Z.of_nat m = n -> search k n (prefix a m) = true.
Proof.
  intro G. induction k as [|k IH]; intros m H; [reflexivity|]. cbn [search]. apply existsb_exists. exists (a (Z.of_nat (S m))).
  split; [apply in_loop; apply G; lia|]. pose proof (clear_prefix n a G m (Z.of_nat (S m)) ltac:(lia)) as C.
  replace (Z.of_nat (S m) - Z.of_nat m) with 1 in C by lia. rewrite C. apply (IH (S m)). lia.
Qed.
Lemma none_found : forallb (fun n => negb (search (Z.to_nat n) n [])) (loop 2 10) = true.
Proof. vm_compute. reflexivity. Qed.
Lemma few_amazons n a : 2 <= n < 10 -> good_amazons n a -> False.
Proof.
  intros H G. pose proof none_found as N. rewrite forallb_forall in N. specialize (N n ltac:(apply in_loop; lia)).
  pose proof (search_finds n a G (Z.to_nat n) O ltac:(lia)) as S. cbn [prefix] in S. rewrite S in N. discriminate N.
Qed.

(** ** Placements *)

Definition placements : list (list Z) :=
  [[3; 7; 0; 4; 8; 1; 5; 9; 2; 6];
   [0; 7; 3; 10; 6; 2; 9; 5; 1; 8; 4];
   [6; 10; 2; 5; 9; 0; 3; 8; 11; 1; 4; 7];
   [12; 1; 4; 7; 10; 2; 5; 8; 11; 0; 3; 9; 6];
   [1; 4; 9; 12; 3; 7; 10; 13; 5; 0; 8; 11; 2; 6];
   [10; 14; 2; 8; 12; 4; 7; 11; 0; 3; 13; 6; 9; 1; 5];
   [11; 15; 5; 1; 8; 4; 0; 14; 9; 6; 12; 2; 7; 13; 10; 3];
   [1; 11; 8; 14; 3; 10; 15; 2; 5; 16; 12; 9; 6; 13; 0; 4; 7];
   [0; 7; 10; 2; 17; 9; 13; 16; 3; 11; 6; 14; 1; 4; 15; 12; 8; 5];
   [3; 9; 14; 2; 10; 15; 1; 18; 5; 13; 8; 16; 0; 4; 7; 11; 17; 6; 12];
   [5; 15; 9; 12; 19; 7; 14; 1; 18; 8; 11; 3; 16; 0; 4; 10; 13; 2; 6; 17];
   [3; 6; 12; 9; 20; 5; 14; 19; 1; 4; 17; 7; 11; 15; 18; 2; 13; 8; 16; 0; 10];
   [15; 21; 9; 0; 3; 18; 8; 1; 17; 12; 20; 7; 4; 11; 19; 5; 16; 2; 13; 10; 6; 14];
   [8; 18; 5; 12; 0; 20; 4; 7; 1; 15; 22; 10; 14; 17; 21; 3; 11; 6; 19; 9; 2; 13; 16];
   [6; 2; 15; 7; 19; 0; 3; 23; 8; 11; 21; 18; 1; 5; 12; 20; 9; 16; 4; 22; 14; 17; 10; 13];
   [24; 12; 5; 0; 11; 23; 4; 19; 1; 8; 15; 20; 7; 17; 2; 21; 16; 6; 9; 3; 22; 13; 18; 10; 14]].
Definition amazons_at (n : Z) : assignment := fun x => nth (Z.to_nat (x - 1)) (nth (Z.to_nat (n - 10)) placements []) 0.
Definition placed_ok (n : Z) : bool :=
  forallb (fun x => (0 <=? amazons_at n x) && (amazons_at n x <? n) &&
    forallb (fun y => (x =? y) || negb (hits (Z.abs (x - y)) (Z.abs (amazons_at n x - amazons_at n y)))) (loop 1 (n + 1))) (loop 1 (n + 1)).
Lemma all_placed : forallb placed_ok (loop 10 26) = true.
Proof. vm_compute. reflexivity. Qed.
Lemma amazons_placed n : 10 <= n < 26 -> good_amazons n (amazons_at n).
Proof.
  intro H. pose proof all_placed as P. rewrite forallb_forall in P. specialize (P n ltac:(apply in_loop; lia)). unfold placed_ok in P. rewrite forallb_forall in P. split.
  - intros x Hx. specialize (P x ltac:(apply in_loop; lia)). apply andb_prop in P. destruct P as (P & _). apply andb_prop in P. lia.
  - intros x y Hx Hy N. specialize (P x ltac:(apply in_loop; lia)). apply andb_prop in P. destruct P as (_ & P). rewrite forallb_forall in P.
    specialize (P y ltac:(apply in_loop; lia)). apply orb_prop in P. destruct P as [P|P]; [lia|]. apply negb_true_iff in P. unfold hits in P.
    set (h := amazons_at n x) in *. set (k := amazons_at n y) in *. clearbody h k.
    repeat (apply orb_false_iff in P; destruct P as (P & ?)).
    repeat match goal with E : _ && _ = false |- _ => apply andb_false_iff in E end.
    unfold amazons_apart, queen_attacks, knight_attacks. lia.
Qed.

Lemma amazons_solvable n : 10 <= n -> exists a, good_amazons n a.
Proof. intro H. destruct (Z_lt_ge_dec n 26); [exists (amazons_at n); apply amazons_placed; lia|apply many_placed; lia]. Qed.

Lemma amazons_decided args c m w f n :
  dispatch args = Ok (SolveFinite c m) -> c_file c = Some f -> files_of w f = Some (amazons_file n) -> 0 <= c_clause_size c -> missing_return w = true ->
  2 <= n <= 600 ->
  exists N v rest ds us bs es k r,
    (v = txt "SAT" /\ 10 <= n /\ (exists a ls, good_amazons n a /\ rest = model_lines (c_log c) ls /\
        if lazy_of c then forall l, In l ls -> lit_holds a l else Permutation ls (lines_of n a)) \/
     v = txt "UNSAT" /\ n < 10 /\ rest = [] \/
     v = txt "TIMEOUT" /\ rest = [] /\ exists i, late_at w (c_time c) i = true) /\
    forall fuel, (N <= fuel)%nat ->
      main fuel args w =
      Ok (mkRan (solver_screen f (time1 w) (time2 w) (time3 w) ((if c_log c then logged w else []) ++ early c m v)
                   (answer_lines v ds us bs es n k r ++ rest)) 0 (files_of w)).
Proof.
  intros D F T C M Hn.
  destruct (puzzle_run args c m w f (amazons_file n) _ n n _ (amazon_describes n ltac:(lia)) (amazon_ready n ltac:(lia)) D F T C M) as (N & v & rest & ds & us & bs & es & k & r & A & E).
  exists N, v, rest, ds, us, bs, es, k, r. split; [|exact E]. destruct A as [(-> & a & ls & A1 & A2 & A3 & A4)|[(-> & -> & A)|(-> & -> & A)]].
  - left. split; [reflexivity|]. split; [|exists a, ls; split; [split|]; auto]. destruct (Z_lt_ge_dec n 10) as [L|L]; [|lia].
    exfalso. apply (few_amazons n a); [lia|split; auto].
  - right. left. split; [reflexivity|]. split; [|reflexivity]. destruct (Z_lt_ge_dec n 10) as [L|L]; [lia|].
    destruct (amazons_solvable n ltac:(lia)) as (a & G1 & G2). exfalso. exact (A a G1 G2).
  - right. right. auto.
Qed.
