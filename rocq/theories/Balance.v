(** Model of engines/yayamls/parser/internal/balancecheck/balancecheck.go and
    engines/yayamls/parser/internal/deadend/finder.go. *)
From Verif Require Import Base Token.

(** ** balancecheck.go *)
(** balancecheck.go 7-12.  The Go slice [stack] is its backing array [bc_arr] (every cell written
    so far) and its length [bc_len]; the stack content is the first [bc_len] cells, the top being
    the last of them.  Shrinking only changes the length, so cells survive a pop (this is what
    SetMemento relies on).  A reallocation by append happens only when all cells are in use and
    keeps them, so it is not visible here. *)
Record checker := mkChk {
  bc_pairs : list (ttype * ttype);
  bc_arr : list ttype;
  bc_len : nat;
  bc_bad : bool            (* cannotBeBalanced *)
}.

(* balancecheck.go 16-27 *)
Definition bc_new (pairs : list (ttype * ttype)) : checker := mkChk pairs [] 0 false.

(* lookup in the openers map; a later pair for the same opener overrides an earlier one *)
Definition bc_closer_of (pairs : list (ttype * ttype)) (o : ttype) : option ttype :=
  fold_left (fun acc p => if ttype_eqb (fst p) o then Some (snd p) else acc) pairs None.
Definition bc_is_closer (pairs : list (ttype * ttype)) (c : ttype) : bool :=
  existsb (fun p => ttype_eqb (snd p) c) pairs.

Definition bc_stack (b : checker) : list ttype := firstn (bc_len b) (bc_arr b).

(** append to the slice: write the cell at the current length *)
Definition bc_write (arr : list ttype) (len : nat) (x : ttype) : list ttype :=
  firstn len arr ++ x :: skipn (len + 1) arr.

(* balancecheck.go 29-46.  The missing-key lookup [b.openers[top]] gives the zero type
   UnknownType. *)
Definition bc_add (b : checker) (r : ttype) : bool * checker :=
  if bc_bad b then (false, b)
  else
    let isCloser := bc_is_closer (bc_pairs b) r in
    let isOpener := match bc_closer_of (bc_pairs b) r with Some _ => true | None => false end in
    let canPop :=
      match last_opt (bc_stack b) with
      | None => false
      | Some top =>
          ttype_eqb (match bc_closer_of (bc_pairs b) top with
                     | Some c => c | None => TUnknown end) r
      end in
    if isCloser && negb isOpener && negb canPop then
      (false, mkChk (bc_pairs b) (bc_arr b) (bc_len b) true)
    else if isCloser && canPop then
      (true, mkChk (bc_pairs b) (bc_arr b) (bc_len b - 1) false)
    else if isOpener then
      (true, mkChk (bc_pairs b) (bc_write (bc_arr b) (bc_len b) r) (bc_len b + 1) false)
    else (true, b).

(* balancecheck.go 48-50 *)
Definition bc_is_balanced (b : checker) : bool := negb (bc_bad b) && Nat.eqb (bc_len b) 0.

(* balancecheck.go 52-59 *)
Definition bc_peek (b : checker) : option ttype := last_opt (bc_stack b).

(* balancecheck.go 61-71 *)
Record memento := mkMem { mem_size : nat; mem_bad : bool }.
Definition bc_memento (b : checker) : memento := mkMem (bc_len b) (bc_bad b).

(* balancecheck.go 73-80.  The cap check is written with the number of written cells: a memento
   taken from this checker never exceeds it. *)
Definition bc_set_memento (b : checker) (m : memento) : checker :=
  mkChk (bc_pairs b) (bc_arr b) (Nat.min (mem_size m) (length (bc_arr b))) (mem_bad m).

(* balancecheck.go 82-84: does not clear cannotBeBalanced *)
Definition bc_reset (b : checker) : checker := mkChk (bc_pairs b) (bc_arr b) 0 (bc_bad b).

Definition bc_adds (b : checker) (ts : list ttype) : checker :=
  fold_left (fun b t => snd (bc_add b t)) ts b.

(** parser.go: the pairs the parser uses *)
Definition flow_pairs : list (ttype * ttype) :=
  [(TSequenceStart, TSequenceEnd); (TMappingStart, TMappingEnd)].

(** ** deadend/finder.go *)
Local Open Scope Z_scope.
(* int8 wrap-around *)
Definition wrap8 (z : Z) : Z := (z + 128) mod 256 - 128.

Definition pos_eqb (a b : position) : bool :=
  N.eqb (row a) (row b) && N.eqb (column a) (column b).

(** finder.go 9-17: the map from positions to int8 counters, absent keys being zero *)
Definition finder := position -> Z.
Definition df_new : finder := fun _ => 0.

Definition dead_end_threshold : Z := 64.

(* finder.go 19-22 *)
Definition df_mark (f : finder) (p : position) : bool * finder :=
  let v := wrap8 (f p + 1) in
  (dead_end_threshold <? v, fun q => if pos_eqb p q then v else f q).

Fixpoint df_marks (f : finder) (ps : list position) : list bool :=
  match ps with
  | [] => []
  | p :: ps' => let '(r, f') := df_mark f p in r :: df_marks f' ps'
  end.
