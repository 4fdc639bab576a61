(** Sort_Model.v - src/atop/sort.cpp: the comparison sorts, as programs over a flat memory of items.
    A program is a tree of single memory accesses, so that it can be run alone (exec) or interleaved with others
    (ParSort_Model.v). Addresses are counted in items: the pointer (T* )p + k is the integer p + k.
    Every loop and recursion carries a bound F; running out of it is the outcome Unfinished, which the theorems exclude. *)
From Verif Require Import Base.

Section Prog.
  Context {T : Type}.

  Inductive prog (A : Type) : Type :=
  | Ret (a : A)
  | Rd (x : Z) (k : T -> prog A)         (* load the item at address x *)
  | Wr (x : Z) (v : T) (k : prog A)      (* store v at address x *)
  | Crash                                (* undefined behaviour: a key outside the key array, a full fixed-size stack *)
  | Diverge.                             (* loop bound used up *)
  Global Arguments Ret {A}. Global Arguments Rd {A}. Global Arguments Wr {A}.
  Global Arguments Crash {A}. Global Arguments Diverge {A}.

  Fixpoint bind {A B} (p : prog A) (f : A -> prog B) : prog B :=
    match p with
    | Ret a => f a
    | Rd x k => Rd x (fun v => bind (k v) f)
    | Wr x v k => Wr x v (bind k f)
    | Crash => Crash
    | Diverge => Diverge
    end.

  Definition load (x : Z) : prog T := Rd x (fun v => Ret v).
  Definition store (x : Z) (v : T) : prog unit := Wr x v (Ret tt).
  Definition ask {A} (o : option A) : prog A := match o with Some a => Ret a | None => Crash end.

  (** iterate [step] until it answers [inr] *)
  Fixpoint loop {S R} (F : nat) (step : S -> prog (S + R)) (s : S) : prog R :=
    match F with
    | O => Diverge
    | S F' => bind (step s) (fun r => match r with inl s' => loop F' step s' | inr v => Ret v end)
    end.

  (** ** running a program alone; [ok] is the set of addresses it may touch *)
  Inductive outcome (A : Type) : Type := Finished (a : A) (m : Z -> T) | Fault | Unfinished.
  Global Arguments Finished {A}. Global Arguments Fault {A}. Global Arguments Unfinished {A}.

  Fixpoint exec {A} (ok : Z -> bool) (p : prog A) (m : Z -> T) : outcome A :=
    match p with
    | Ret a => Finished a m
    | Rd x k => if ok x then exec ok (k (m x)) m else Fault
    | Wr x v k => if ok x then exec ok k (zupd m x v) else Fault
    | Crash => Fault
    | Diverge => Unfinished
    end.
End Prog.
Arguments prog : clear implicits.
Arguments outcome : clear implicits.
Notation "'let!' x ':=' p 'in' q" := (bind p (fun x => q)) (at level 200, x pattern, p at level 100, q at level 200).
Notation "p ';;' q" := (bind p (fun _ => q)) (at level 199, right associativity).

(** sort.cpp:72-76 *)
Definition SMALL_MERGESORT : Z := 15.
Definition SMALL_QUICKSORT : Z := 30.
Definition PYA_QS_STACK : Z := 128.

(** addresses lo <= x < hi *)
Definition inr_ (lo hi x : Z) : bool := (lo <=? x) && (x <? hi).

Section Sorts.
  Context {T : Type}.
  Variable F : nat.                          (* loop bound *)
  Variable LT : T -> T -> option bool.       (* COMPARE_LT / STRING_LT; for the indirect sorts v[.] < v[.], None if out of v *)

  Definition lt_ (x y : T) : prog T bool := ask (LT x y).

  (** std::swap of two items, sort.cpp:81 *)
  Definition swap (x y : Z) : prog T unit :=
    let! a := load x in let! b := load y in store x b ;; store y a.

  (** ** heapsort_ (412-462) and, with LT on indices, aheapsort_ (468-520) *)

  (** the inner for loop, 425-437 and 445-457; [a] = start-1, so item k is at address a+k *)
  Definition sift (a n : Z) (tmp : T) (i0 j0 : Z) : prog T Z :=
    loop F (fun ij : Z * Z => let '(i, j) := ij in
      if j <=? n then
        let! j' := (if j <? n then
                      let! x := load (a + j) in let! y := load (a + (j + 1)) in
                      let! b := lt_ x y in Ret (if b : bool then j + 1 else j)
                    else Ret j) in
        let! y := load (a + j') in
        let! b := lt_ tmp y in
        if b : bool then store (a + i) y ;; Ret (inl (j', j' + j')) else Ret (inr i)
      else Ret (inr i)) (i0, j0).

  Definition heapsort_ (start n : Z) : prog T unit :=
    let a := start - 1 in
    (* 423-439 *)
    loop F (fun l =>
      if 0 <? l then
        let! tmp := load (a + l) in
        let! i := sift a n tmp l (l * 2) in
        store (a + i) tmp ;; Ret (inl (l - 1))
      else Ret (inr tt)) (n / 2) ;;
    (* 441-459 *)
    loop F (fun n =>
      if 1 <? n then
        let! tmp := load (a + n) in
        let! top := load (a + 1) in
        store (a + n) top ;;
        let! i := sift a (n - 1) tmp 1 2 in
        store (a + i) tmp ;; Ret (inl (n - 1))
      else Ret (inr tt)) n.

  (** ** insertion sort of [lo, hi): 579-587, 668-677, 766-774, 881-889, 1037-1046, 1107-1116, 1180-1189 *)
  Definition insertion (lo hi : Z) : prog T unit :=
    loop F (fun pi =>
      if pi <? hi then
        let! vp := load pi in
        let! pj := loop F (fun pj =>
                     if lo <? pj then
                       let! x := load (pj - 1) in
                       let! b := lt_ vp x in
                       if b : bool then store pj x ;; Ret (inl (pj - 1)) else Ret (inr pj)
                     else Ret (inr pj)) pi in
        store pj vp ;; Ret (inl (pi + 1))
      else Ret (inr tt)) (lo + 1).

  (** ** quicksort_ (526-608) and, with LT on indices, aquicksort_ (613-692) *)

  (** if (COMPARE_LT( *x, *y)) T_SWAP( *x, *y);   547-549 *)
  Definition swap_if (x y : Z) : prog T unit :=
    let! a := load x in let! b := load y in
    let! c := lt_ a b in if c : bool then swap x y else Ret tt.

  (** 545-563: median of three, then partition; returns the pivot's final place pi *)
  Definition partition (pl pr : Z) : prog T Z :=
    let pm := pl + (pr - pl) / 2 in
    swap_if pm pl ;; swap_if pr pm ;; swap_if pm pl ;;
    let! vp := load pm in
    swap pm (pr - 1) ;;
    let! pi := loop F (fun ij : Z * Z => let '(pi, pj) := ij in
        (* do ++pi; while (COMPARE_LT( *pi, vp)); *)
        let! pi := loop F (fun pi => let! x := load (pi + 1) in let! b := lt_ x vp in
                                     Ret (if b : bool then inl (pi + 1) else inr (pi + 1))) pi in
        (* do --pj; while (COMPARE_LT(vp, *pj)); *)
        let! pj := loop F (fun pj => let! x := load (pj - 1) in let! b := lt_ vp x in
                                     Ret (if b : bool then inl (pj - 1) else inr (pj - 1))) pj in
        if pi >=? pj then Ret (inr pi) else swap pi pj ;; Ret (inl (pi, pj))) (pl, pr - 1) in
    swap pi (pr - 1) ;; Ret pi.

  (** npy_get_msb, 32-41 *)
  Definition npy_get_msb (n : Z) : Z := Z.log2 n.

  (** one entry of stack[] and depth[] (534-539): two pointers and a depth; pushing beyond the arrays is undefined.
      sptr advances by 2 and psdepth by 1 per entry. *)
  Definition frame := (Z * Z * Z)%type.
  Definition push (e : frame) (st : list frame) : prog T (list frame) :=
    if (2 * (Z.of_nat (length st) + 1) <=? PYA_QS_STACK) && (Z.of_nat (length st) + 1 <=? PYA_QS_STACK)
    then Ret (e :: st) else Crash.

  (** 544-576: partition until the current piece is small *)
  Definition qs_inner (s : Z * Z * Z * list frame) : prog T (Z * Z * Z * list frame) :=
    loop F (fun s : Z * Z * Z * list frame => let '(pl, pr, cd, st) := s in
      if SMALL_QUICKSORT <? pr - pl then
        let! pi := partition pl pr in
        if pi - pl <? pr - pi then
          let! st := push (pi + 1, pr, cd - 1) st in Ret (inl (pl, pi - 1, cd - 1, st))
        else
          let! st := push (pl, pi - 1, cd - 1) st in Ret (inl (pi + 1, pr, cd - 1, st))
      else Ret (inr s)) s.

  Definition quicksort_ (start n : Z) : prog T unit :=
    loop F (fun s : Z * Z * Z * list frame => let '(pl, pr, cd, st) := s in
      let! st :=
        (if 0 <=? cd then
           let! (pl, pr, cd, st) := qs_inner (pl, pr, cd, st) in
           insertion pl (pr + 1) ;; Ret st
         else
           heapsort_ pl (pr - pl + 1) ;; Ret st) in
      match st with
      | [] => Ret (inr tt)
      | (l, r, d) :: st' => Ret (inl (l, r, d, st'))
      end) (start, start + n - 1, npy_get_msb n * 2, []).

  (** ** merging *)

  (** MEMCPYR, 44-46, of [n] items *)
  Definition memcpy (dst src n : Z) : prog T unit :=
    loop F (fun k => if k <? n then let! x := load (src + k) in store (dst + k) x ;; Ret (inl (k + 1))
                     else Ret (inr tt)) 0.

  (** while (p < e) *d++ = *p++;    746-748, 752-754, 833-835, 869-871, 1092-1099, 1173-1175, 1363-1365, 1414-1416 *)
  Definition copy_rest (p e d : Z) : prog T Z :=
    loop F (fun pd : Z * Z => let '(p, d) := pd in
      if p <? e then let! x := load p in store d x ;; Ret (inl (p + 1, d + 1)) else Ret (inr d)) (p, d).

  (** the two-way merge loop: 731-745, 818-832, 854-868, 1083-1091, 1164-1172, 1355-1362, 1405-1412.
      [left_first l r]: the test that takes the left item. Left run [pl, el), right run [pr, er), output at d. *)
  Definition merge_loop (left_first : T -> T -> prog T bool) (pl el pr er d : Z) : prog T (Z * Z * Z) :=
    loop F (fun s : Z * Z * Z => let '(pl, pr, d) := s in
      if (pl <? el) && (pr <? er) then
        let! r := load pr in
        let! l := load pl in
        let! b := left_first l r in
        if b : bool then store d l ;; Ret (inl (pl + 1, pr, d + 1))
        else store d r ;; Ret (inl (pl, pr + 1, d + 1))
      else Ret (inr s)) (pl, pr, d).

  (** ** mergesort0_ / mergesort0left_ (697-891): numeric in-place merge sort *)
  Variable LE : T -> T -> bool.      (* the C operator <= on items, false when either is NaN *)
  Variable isnan : T -> bool.        (* cmp != cmp; constantly false on integer types, where FIND_NANS is the identity *)

  (** FIND_NANS, 139-153 *)
  Definition find_nans (pr pm : Z) : prog T Z :=
    loop F (fun pr => let! c := load (pr - 1) in
      if isnan c then (if pm <? pr - 1 then Ret (inl (pr - 1)) else Ret (inr (pr - 1)))
      else Ret (inr pr)) pr.

  Fixpoint mergesort0_ (f : nat) (pl pr pw : Z) {struct f} : prog T unit :=
    match f with
    | O => Diverge
    | S f =>
      if SMALL_MERGESORT <? pr - pl then
        let pm := pl + (pr - pl) / 2 in
        mergesort0_ f pm pr pw ;;
        let! copied := mergesort0left_ f pl pm pw in
        let pwEnd := pw + (pm - pl) in
        if copied : bool then
          let! x := load pm in let! y := load (pwEnd - 1) in
          let! b := lt_ x y in
          if b : bool then
            let! pr := find_nans pr pm in
            let! (p, _, d) := merge_loop (fun l r => Ret (LE l r)) pw pwEnd pm pr pl in
            let! _ := copy_rest p pwEnd d in Ret tt
          else memcpy pl pw (pm - pl)
        else
          let! x := load pm in let! y := load (pm - 1) in
          let! b := lt_ x y in
          if b : bool then
            let! pr := find_nans pr pm in
            memcpy pw pl (pm - pl) ;;
            let! (p, _, d) := merge_loop (fun l r => Ret (LE l r)) pw pwEnd pm pr pl in
            let! _ := copy_rest p pwEnd d in Ret tt
          else Ret tt
      else insertion pl pr
    end
  with mergesort0left_ (f : nat) (pl pr pw : Z) {struct f} : prog T bool :=
    match f with
    | O => Diverge
    | S f =>
      if SMALL_MERGESORT <? pr - pl then
        let pm := pl + (pr - pl) / 2 in
        mergesort0_ f pm pr pw ;;
        mergesort0_ f pl pm pw ;;
        let! x := load pm in let! y := load (pm - 1) in
        let! b := lt_ x y in
        if b : bool then
          let! pr' := find_nans pr pm in
          let! (p, q, d) := merge_loop (fun l r => Ret (LE l r)) pl pm pm pr' pw in
          let! d := copy_rest p pm d in
          let! _ := copy_rest q pr d in
          Ret true
        else Ret false
      else insertion pl pr ;; Ret false
    end.

  (** mergesort_ (954-973); [pw] is the workspace of n/2 items allocated at 964-965 *)
  Definition mergesort_ (start n pw : Z) : prog T unit := mergesort0_ F start (start + n) pw.

  (** ** amergesort0_ / amergesort0left_ (1053-1191): indirect merge sort; items are indices, LT compares v[.] with
      COMPARE_LT and [RAWLT] with the bare C operator < (1165) *)
  Variable RAWLT : T -> T -> option bool.

  Fixpoint amergesort0_ (f : nat) (pl pr pw : Z) {struct f} : prog T unit :=
    match f with
    | O => Diverge
    | S f =>
      if SMALL_MERGESORT <? pr - pl then
        let pm := pl + (pr - pl) / 2 in
        amergesort0_ f pm pr pw ;;
        let! copied := amergesort0left_ f pl pm pw in
        let! go := (if copied : bool then Ret true
                    else
                      let! x := load pm in let! y := load (pm - 1) in
                      let! b := lt_ x y in
                      if b : bool then memcpy pw pl (pm - pl) ;; Ret true else Ret false) in
        if go : bool then
          let pwEnd := pw + (pm - pl) in
          let! (p, _, d) := merge_loop (fun l r => let! b := ask (RAWLT r l) in Ret (negb b)) pw pwEnd pm pr pl in
          let! _ := copy_rest p pwEnd d in Ret tt
        else Ret tt
      else insertion pl pr
    end
  with amergesort0left_ (f : nat) (pl pr pw : Z) {struct f} : prog T bool :=
    match f with
    | O => Diverge
    | S f =>
      if SMALL_MERGESORT <? pr - pl then
        let pm := pl + (pr - pl) / 2 in
        amergesort0_ f pm pr pw ;;
        amergesort0_ f pl pm pw ;;
        let! x := load pm in let! y := load (pm - 1) in
        let! b := lt_ x y in
        if b : bool then
          let! (p, q, d) := merge_loop (fun l r => let! b := lt_ r l in Ret (negb b)) pl pm pm pr pw in
          let! d := copy_rest p pm d in
          let! _ := copy_rest q pr d in
          Ret true
        else Ret false
      else insertion pl pr ;; Ret false
    end.

  (** amergesort_ (1195-1216), amergesortworkspace_ (1220-1232), single_amergesort default case (1907) *)
  Definition amergesort_ (start n pw : Z) : prog T unit := amergesort0_ F start (start + n) pw.

  (** ** string merge sorts: mergesort0string_ (896-951) and amergesort0_string (1000-1048).
      An item is a whole string; STRING_COPY of strLen bytes is one item move. *)

  (** 936-948: insertion sort through the one-item buffer at pw *)
  Definition insertion_string (pl pr pw : Z) : prog T unit :=
    loop F (fun pi =>
      if pi <? pr then
        let! vp := load pi in
        store pw vp ;;
        let! pj := loop F (fun pj =>
                     if pl <? pj then
                       let! vp := load pw in
                       let! x := load (pj - 1) in
                       let! b := lt_ vp x in
                       if b : bool then store pj x ;; Ret (inl (pj - 1)) else Ret (inr pj)
                     else Ret (inr pj)) pi in
        let! vp := load pw in
        store pj vp ;; Ret (inl (pi + 1))
      else Ret (inr tt)) (pl + 1).

  (** [direct] = true: mergesort0string_; false: amergesort0_string, whose insertion sort keeps the item in a local *)
  Fixpoint mergesort0string_ (direct : bool) (f : nat) (pl pr pw : Z) {struct f} : prog T unit :=
    match f with
    | O => Diverge
    | S f =>
      if SMALL_MERGESORT <? pr - pl then
        let pm := pl + (pr - pl) / 2 in
        mergesort0string_ direct f pl pm pw ;;
        mergesort0string_ direct f pm pr pw ;;
        let! x := load pm in let! y := load (pm - 1) in
        let! b := lt_ x y in
        if b : bool then
          memcpy pw pl (pm - pl) ;;
          let pi := pw + (pm - pl) in
          let! (p, _, d) := merge_loop (fun l r => let! b := lt_ r l in Ret (negb b)) pw pi pm pr pl in
          let! _ := copy_rest p pi d in Ret tt
        else Ret tt
      else if direct then insertion_string pl pr pw else insertion pl pr
    end.

  (** ** ParInPlaceMerge (1382-1422) and ParMergeMerge (1327-1373): merge the two sorted halves of [start, start+n) *)
  Definition par_merge (start n pw : Z) : prog T unit :=
    let pr := start + n in
    let pm := start + n / 2 in
    let! x := load pm in let! y := load (pm - 1) in
    let! b := lt_ x y in
    if b : bool then
      memcpy pw start (pm - start) ;;
      let pi := pw + (pm - start) in
      let! (p, _, d) := merge_loop (fun l r => let! b := lt_ r l in Ret (negb b)) pw pi pm pr start in
      let! _ := copy_rest p pi d in Ret tt
    else Ret tt.
End Sorts.

(** sort.cpp:124-135: COMPARE_LT on integer items is < on their values *)
Definition LT_int (x y : Z) : option bool := Some (x <? y).

(** the three in-place modes SortInPlace can return (2208-2225) *)
Inductive sort_mode := QSORT | HEAP | MERGE.
Definition sort_in_place {T} F (LT : T -> T -> option bool) LE isnan (mode : sort_mode) (start n pw : Z) : prog T unit :=
  match mode with
  | QSORT => quicksort_ F LT start n
  | HEAP => heapsort_ F LT start n
  | MERGE => mergesort_ F LT LE isnan start n pw
  end.
