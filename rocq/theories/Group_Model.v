(** Group_Model.v - src/atop/sort.cpp:2507-2745, GroupIndexStep2 / GroupIndexStep2String and their dispatcher. *)
From Verif Require Import Base Sort_Model SortCmp_Model.

(** the output arrays, and the locals val1, curCount, curGroup *)
Record gstate (K : Type) := mkG { gval : K; gcnt : Z; gcur : Z; ggroup : Z -> Z; gfirst : Z -> Z; gcount : Z -> Z }.
Arguments mkG {K}. Arguments gval {K}. Arguments gcnt {K}. Arguments gcur {K}. Arguments ggroup {K}. Arguments gfirst {K}. Arguments gcount {K}.

Section Group.
  Context {K : Type}.
  Variables (same : K -> K -> bool).    (* val1 == val2, or BINARY_LT(val1, val2, strlen) == 0 *)
  Variables (key : Z -> K) (rows : Z).  (* pDataIn: the key of each row, [rows] of them *)
  Variables (idx : Z -> Z) (n : Z).     (* pDataIndexIn, arraySize1 *)
  Variables (bump : bool).              (* curGroup++ before pCountOut[curGroup] = curCount, or after *)
  Variables (add : Z).                  (* what is added to curGroup for pGroupOut *)

  (** the arrays' bounds: keys have [rows] items, group numbers [rows], first [n], count [n] + 1 (sorting.cpp:661-665);
      None = an access outside *)
  Definition index_at (i : Z) : option Z := if inr_ 0 n i then Some (idx i) else None.
  Definition key_at (r : Z) : option K := if inr_ 0 rows r then Some (key r) else None.
  Definition put (size : Z) (a : Z -> Z) (i v : Z) : option (Z -> Z) := if inr_ 0 size i then Some (zupd a i v) else None.
  Definition obind {A B} (x : option A) (f : A -> option B) : option B := match x with Some a => f a | None => None end.
  Notation "'do' x <- e ; f" := (obind e (fun x => f)) (at level 200, x name, e at level 100, f at level 200).

  (** loop body, 2581-2599 (bump = false), 2612-2628 (bump = true), 2676-2690 *)
  Definition group_body (s : gstate K) (i : Z) : option (gstate K) :=
    do curIndex <- index_at i;
    do val2 <- key_at curIndex;
    if same (gval s) val2 then
      do g <- put rows (ggroup s) curIndex (gcur s + add);
      Some (mkG (gval s) (gcnt s + 1) (gcur s) g (gfirst s) (gcount s))
    else
      let cur := gcur s + 1 in
      do c <- put (n + 1) (gcount s) (if bump then cur else gcur s) (gcnt s);
      do f <- put n (gfirst s) cur curIndex;
      do g <- put rows (ggroup s) curIndex (cur + add);
      Some (mkG val2 1 cur g f c).

  (** 2526-2531, 2575-2579 / 2605-2610 / 2662-2673 before the loop; [g0] etc: the arrays' contents on entry *)
  Definition group_run (g0 f0 c0 : Z -> Z) : option (Z * gstate K) :=
    do curIndex <- index_at 0;
    do val1 <- key_at curIndex;
    do c <- (if bump then put (n + 1) c0 0 0 else Some c0);
    do f <- put n f0 0 curIndex;
    do g <- put rows g0 curIndex add;
    do s <- fold_left (fun s i => do s <- s; group_body s i) (zrange 1 n) (Some (mkG val1 1 0 g f c));
    do c <- put (n + 1) (gcount s) (if bump then gcur s + 1 else gcur s) (gcnt s);
    Some (gcur s + 1, mkG (gval s) (gcnt s) (gcur s + 1) (ggroup s) (gfirst s) c).
End Group.

(** GroupIndexStep2, 2514-2647, for items of 1, 2, 4 and 8 bytes, compared as integers (of the same bits) *)
Definition GroupIndexStep2 (key : Z -> Z) rows idx n (base_index : Z) :=
  if base_index =? 0 then group_run Z.eqb key rows idx n false 0 else group_run Z.eqb key rows idx n true 1.
(** GroupIndexStep2String, 2650-2695: items of [len] bytes for every other length. pCountOut[0] = 0 and the early curGroup++
    are there for base_index 0 too. *)
Definition GroupIndexStep2String (len : nat) (key : Z -> list Z) rows idx n (base_index : Z) :=
  group_run (fun a b => negb (BINARY_LT len a b)) key rows idx n true base_index.
