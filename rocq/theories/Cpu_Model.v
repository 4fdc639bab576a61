(** Cpu_Model.v - pn.cpu_count_linux() and pn.init(): src/pnumpy/cpu.py:15-106.

    A bytes object is the list of its bytes.  The machine is given by what the calls of the operating system answer: [sysconf] (None: ValueError),
    the contents of the files the two glob patterns match, /proc/cpuinfo (None: FileNotFoundError). *)
From Verif Require Import Base.

Definition text := list Z.
Inductive exc := FileNotFoundError | ValueError | NameError.
Inductive res (A : Type) := Ok (x : A) | Raise (e : exc).
Arguments Ok {A} x. Arguments Raise {A} e.

(** bytes.strip(): space, tab, newline, carriage return, vertical tab, form feed *)
Definition is_space (c : Z) : bool := (c =? 32) || ((9 <=? c) && (c <=? 13)).
Fixpoint lstrip (l : text) : text := match l with c :: r => if is_space c then lstrip r else l | [] => [] end.
Definition strip (l : text) : text := rev (lstrip (rev (lstrip l))).
(** bytes.lower() *)
Definition lower1 (c : Z) : Z := if (65 <=? c) && (c <=? 90) then c + 32 else c.
Definition lower (l : text) : text := map lower1 l.
(** bytes.startswith *)
Fixpoint startswith (p l : text) : bool :=
  match p, l with [], _ => true | a :: p', b :: l' => (a =? b) && startswith p' l' | _ :: _, [] => false end.
(** the lines of a file opened in binary mode, without the newline at their end (every use strips or looks at the beginning only) *)
Fixpoint lines_from (cur : text) (l : text) : list text :=
  match l with
  | [] => match cur with [] => [] | _ => [rev cur] end
  | c :: r => if c =? 10 then rev cur :: lines_from [] r else lines_from (c :: cur) r
  end.
Definition lines_of (l : text) : list text := lines_from [] l.
(** line.split(b'\t:', 1): None if the separator does not occur *)
Fixpoint split_tab_colon (l : text) : option (text * text) :=
  match l with
  | [] => None
  | c :: r => match r with
              | 58 :: v => if c =? 9 then Some ([], v) else match split_tab_colon r with Some (k, v) => Some (c :: k, v) | None => None end
              | _ => match split_tab_colon r with Some (k, v) => Some (c :: k, v) | None => None end
              end
  end.
(** int(bytes): white space around, a sign, digits; None: ValueError.  Simplification: underscores between digits are not accepted here *)
Definition is_digit (c : Z) : bool := (48 <=? c) && (c <=? 57).
Definition parse_digits (l : text) : option Z :=
  match l with [] => None | _ => if forallb is_digit l then Some (fold_left (fun a c => 10 * a + (c - 48)) l 0) else None end.
Definition parse_int (l : text) : option Z :=
  match strip l with
  | 45 :: r => match parse_digits r with Some z => Some (- z) | None => None end
  | 43 :: r => parse_digits r
  | r => parse_digits r
  end.

(** a Python set of bytes: its elements *)
Definition text_dec : forall a b : text, {a = b} + {a <> b} := list_eq_dec Z.eq_dec.
(** dictionaries: the entry written last is in front *)
Definition get {K V} (eqb : K -> K -> bool) (k : K) (d : list (K * V)) : option V := match find (fun e => eqb (fst e) k) d with Some e => Some (snd e) | None => None end.
Definition set {K V} (eqb : K -> K -> bool) (k : K) (v : V) (d : list (K * V)) : list (K * V) := (k, v) :: filter (fun e => negb (eqb (fst e) k)) d.
Definition text_eqb (a b : text) : bool := if text_dec a b then true else false.

(** b'physical id', b'cpu cores', b'processor' *)
Definition physical_id : text := [112;104;121;115;105;99;97;108;32;105;100].
Definition cpu_cores : text := [99;112;117;32;99;111;114;101;115].
Definition processor : text := [112;114;111;99;101;115;115;111;114].

(** method #2, l.41-62: [mapping], [current_info] *)
Fixpoint sections (ls : list text) (mapping : list (Z * Z)) (cur : list (text * Z)) : res (list (Z * Z)) :=
  match ls with
  | [] => Ok mapping
  | line :: ls' =>
      let line := lower (strip line) in
      match line with
      | [] => match get text_eqb cpu_cores cur, get text_eqb physical_id cur with
              | Some c, Some p => sections ls' (set Z.eqb p c mapping) []
              | _, _ => sections ls' mapping []                    (* KeyError, caught *)
              end
      | _ => if startswith physical_id line || startswith cpu_cores line then
               match split_tab_colon line with
               | None => Raise ValueError                          (* not enough values to unpack *)
               | Some (k, v) => match parse_int v with None => Raise ValueError | Some z => sections ls' mapping (set text_eqb k z cur) end
               end
             else sections ls' mapping cur
      end
  end.

Record machine := mkMachine { sysconf : option Z; core_cpus_list : list text; thread_siblings_list : list text; cpuinfo : option text }.

(** cpu_physical_linux, l.18-62 *)
Definition cpu_physical_linux (e : machine) : res (option Z) :=
  let files := match core_cpus_list e with [] => thread_siblings_list e | l => l end in
  match Z.of_nat (length (nodup text_dec (map strip files))) with
  | 0 => match cpuinfo e with
         | None => Raise FileNotFoundError
         | Some t => match sections (lines_of t) [] [] with
                     | Raise x => Raise x
                     | Ok mapping => let r := fold_right Z.add 0 (map snd mapping) in Ok (if r =? 0 then None else Some r)
                     end
         end
  | r => Ok (Some r)
  end.
(** l.64-90; [open_text] is not defined anywhere in the module (l.80) *)
Definition logical (e : machine) : res (option Z) :=
  match sysconf e with
  | Some n => Ok (Some n)
  | None => match cpuinfo e with
            | None => Raise FileNotFoundError
            | Some t => let num := Z.of_nat (length (filter (fun l => startswith processor (lower l)) (lines_of t))) in
                        if num =? 0 then Raise NameError else Ok (Some num)
            end
  end.
Definition cpu_count_linux (e : machine) : res (option Z * option Z) :=
  match logical e with
  | Raise x => Raise x
  | Ok n => match cpu_physical_linux e with Raise x => Raise x | Ok p => Ok (n, p) end
  end.
(** init on Linux, l.92-106, run when pnumpy is imported (__init__.py:76): the counts are computed, not used, and _pnumpy.initialize() is called *)
Definition init {A} (e : machine) (initialize : res A) : res A :=
  match cpu_count_linux e with Raise x => Raise x | Ok _ => initialize end.
