(** Cpu_Props.v - C81: cpu_count_linux() counts processors and cores *)
From Coq Require Import Sorting.Permutation.
From Coq Require Import Strings.String Strings.Ascii.
From Verif Require Import Base Cpu_Model.
Open Scope list_scope.

(** ======== specification ======== *)
(** the decimal notation of a number *)
Inductive decimal : text -> Z -> Prop :=
| dec_one : forall d, 0 <= d <= 9 -> decimal [48 + d] d
| dec_more : forall l n d, decimal l n -> 0 <= d <= 9 -> decimal (l ++ [48 + d]) (10 * n + d).
(** the bytes of an ASCII string *)
Fixpoint ascii (s : string) : list Z := match s with EmptyString => [] | String c r => Z.of_nat (nat_of_ascii c) :: ascii r end.
Definition k_processor : list Z := ascii "processor".
Definition k_physical : list Z := ascii "physical id".
Definition k_cores : list Z := ascii "cpu cores".
(** space, tab, newline, vertical tab, form feed, carriage return *)
Definition white (c : Z) : Prop := c = 32 \/ 9 <= c <= 13.
Definition capital (c : Z) : Prop := 65 <= c <= 90.
(** [l] begins with [k], small letters or capitals; and so it does after white space *)
Definition begins (k l : list Z) : Prop := exists v rest, l = v ++ rest /\ Forall2 (fun a b => a = b \/ (capital a /\ b = a + 32)) v k.
Definition begins_after_space (k l : list Z) : Prop := exists u r, l = u ++ r /\ Forall white u /\ begins k r.
(** the lines of a section of /proc/cpuinfo (proc(5)): "processor\t: N", "physical id\t: N", "cpu cores\t: N", others *)
Inductive info_line := Proc (d : text) | Phys (d : text) (p : Z) | Cores (d : text) (c : Z) | Rest (l : text).
Definition line_text (i : info_line) : text :=
  match i with
  | Proc d => k_processor ++ [9; 58; 32] ++ d | Phys d _ => k_physical ++ [9; 58; 32] ++ d | Cores d _ => k_cores ++ [9; 58; 32] ++ d | Rest l => l
  end.
Definition valid_line (i : info_line) : Prop :=
  match i with
  | Proc d => exists n, decimal d n
  | Phys d p => decimal d p
  | Cores d c => decimal d c
  | Rest l => ~ In 10 l /\ (exists c, In c l /\ ~ white c) /\
      ~ begins_after_space k_processor l /\ ~ begins_after_space k_physical l /\ ~ begins_after_space k_cores l
  end.
(** a section is its lines and an empty line *)
Definition section_text (s : list info_line) : text := concat (map (fun i => line_text i ++ [10]) s) ++ [10].
(** one processor with its package and the number of cores of the package; [None]: the kernel does not say *)
Definition describes (s : list info_line) (p c : option Z) : Prop :=
  Forall valid_line s /\ (exists d, [Proc d] = filter (fun i => match i with Proc _ => true | _ => false end) s) /\
  map (fun i => match i with Phys _ p => Some p | _ => None end) (filter (fun i => match i with Phys _ _ => true | _ => false end) s) = match p with Some _ => [p] | None => [] end /\
  map (fun i => match i with Cores _ c => Some c | _ => None end) (filter (fun i => match i with Cores _ _ => true | _ => false end) s) = match c with Some _ => [c] | None => [] end.
(** [n] is how many different values [f] takes on the list *)
Definition different {A B} (f : A -> B) (l : list A) (n : Z) : Prop := exists vs, NoDup vs /\ (forall v, In v vs <-> exists x, In x l /\ f x = v) /\ n = Z.of_nat (length vs).
(** [n] is the sum of the cores of the packages, each package counted once; [procs]: package and cores as each processor's section tells them *)
Definition cores_of_packages (procs : list (option Z * option Z)) (n : Z) : Prop :=
  exists pk : list (Z * Z), NoDup (map fst pk) /\ (forall p c, In (p, c) pk <-> In (Some p, Some c) procs) /\ n = fold_right Z.add 0 (map snd pk).

(** ======== lemmas ======== *)
Lemma keys : k_processor = processor /\ k_physical = physical_id /\ k_cores = cpu_cores.
Proof. repeat split; reflexivity. Qed.
Lemma white_space c : is_space c = true <-> white c.
Proof. unfold is_space, white. lia. Qed.
Lemma not_white c : ~ white c <-> is_space c = false.
Proof. rewrite <- white_space. destruct (is_space c); split; congruence. Qed.
Lemma startswith_begins k : forall l, startswith k (lower l) = true -> begins k l.
Proof.
  induction k as [|a k IH]; intros l H; [exists [], l; split; [reflexivity|constructor]|]. destruct l as [|b l]; [discriminate|]. unfold lower in H. cbn [map startswith] in H. apply andb_prop in H. destruct H as [H1 H2].
  destruct (IH l H2) as (v & rest & -> & F). exists (b :: v), rest. split; [reflexivity|]. constructor; [|exact F]. unfold lower1 in H1. destruct ((65 <=? b) && (b <=? 90)) eqn:E; [right; unfold capital; lia|left; lia].
Qed.
Lemma begins_startswith k l : begins k l -> (forall c, In c k -> ~ capital c) -> startswith k (lower l) = true.
Proof.
  intros (v & rest & -> & F) NC. induction F as [|a b v k H F IH]; [reflexivity|]. unfold lower in *. cbn [app map startswith]. rewrite IH by (intros; apply NC; now right). rewrite andb_true_r. apply Z.eqb_eq.
  unfold lower1. pose proof (NC b ltac:(now left)). unfold capital in *. destruct ((65 <=? a) && (a <=? 90)) eqn:E; lia.
Qed.
Lemma lstrip_split l : exists u, l = u ++ lstrip l /\ Forall white u.
Proof.
  induction l as [|c l (u & E & W)]; [exists []; split; [reflexivity|constructor]|]. cbn [lstrip]. destruct (is_space c) eqn:Ec; [|exists []; split; [reflexivity|constructor]].
  exists (c :: u). split; [cbn [app]; now f_equal|]. constructor; [now apply white_space|exact W].
Qed.
Lemma strip_split l : exists u z, l = u ++ strip l ++ z /\ Forall white u.
Proof.
  destruct (lstrip_split l) as (u & E & W). destruct (lstrip_split (rev (lstrip l))) as (z & E' & _). exists u, (rev z). split; [|exact W]. rewrite E at 1. f_equal. unfold strip.
  rewrite <- rev_app_distr, <- E'. now rewrite rev_involutive.
Qed.
Lemma rest_plain k l : ~ begins_after_space k l -> startswith k (lower (strip l)) = false /\ startswith k (lower l) = false.
Proof.
  intros H. split.
  - destruct (startswith k (lower (strip l))) eqn:E; [exfalso|reflexivity]. destruct (strip_split l) as (u & z & El & W). apply startswith_begins in E. destruct E as (v & rest & Es & F).
    apply H. exists u, (strip l ++ z). split; [exact El|]. split; [exact W|]. exists v, (rest ++ z). split; [rewrite Es, <- app_assoc; reflexivity|exact F].
  - destruct (startswith k (lower l)) eqn:E; [exfalso|reflexivity]. apply startswith_begins in E. apply H. exists [], l. split; [reflexivity|]. split; [constructor|exact E].
Qed.
Lemma decimal_digits l n : decimal l n -> l <> [] /\ forallb is_digit l = true /\ fold_left (fun a c => 10 * a + (c - 48)) l 0 = n /\ 0 <= n.
Proof.
  induction 1 as [d Hd|l n d H (H1 & H2 & H3 & H4) Hd].
  - split; [discriminate|]. split; [cbn; unfold is_digit; lia|]. cbn [fold_left]. split; lia.
  - split; [destruct l; discriminate|]. rewrite forallb_app, H2, fold_left_app, H3. split; [cbn; unfold is_digit; lia|]. cbn [fold_left]. split; lia.
Qed.
Lemma digit_plain c : is_digit c = true -> is_space c = false /\ lower1 c = c /\ c <> 10 /\ c <> 45 /\ c <> 43.
Proof. unfold is_digit, is_space, lower1. intros H. repeat split; try lia. destruct ((65 <=? c) && (c <=? 90)) eqn:E; [lia|reflexivity]. Qed.
Lemma decimal_parts l n : decimal l n -> exists c r, l = c :: r /\ is_digit c = true /\ exists r' c', l = r' ++ [c'] /\ is_digit c' = true.
Proof.
  intros H. destruct (decimal_digits l n H) as (H1 & H2 & _). destruct (exists_last H1) as (r' & c' & E). destruct l as [|c r]; [contradiction|]. exists c, r. split; [reflexivity|].
  split; [cbn [forallb] in H2; apply andb_prop in H2; tauto|]. exists r', c'. split; [exact E|]. rewrite E in H2.
  rewrite forallb_app in H2. cbn [forallb] in H2. destruct (is_digit c'); [reflexivity|]. rewrite andb_false_r in H2. discriminate.
Qed.
Lemma lower_digits l : forallb is_digit l = true -> lower l = l.
Proof. induction l as [|c l IH]; [reflexivity|]. cbn [forallb lower map]. intros H. apply andb_prop in H. destruct H as [H1 H2]. f_equal; [now apply digit_plain|now apply IH]. Qed.
Lemma lstrip_id c r : is_space c = false -> lstrip (c :: r) = c :: r.
Proof. intros H. cbn [lstrip]. now rewrite H. Qed.
Lemma strip_id c r r' c' : c :: r = r' ++ [c'] -> is_space c = false -> is_space c' = false -> strip (c :: r) = c :: r.
Proof. intros E H H'. unfold strip. rewrite (lstrip_id c r H). rewrite E, rev_app_distr. cbn [rev app]. rewrite lstrip_id by exact H'. cbn [rev]. now rewrite rev_involutive. Qed.
Lemma parse_decimal l n : decimal l n -> parse_int (32 :: l) = Some n.
Proof.
  intros H. destruct (decimal_parts l n H) as (c & r & E & Hc & r' & c' & E' & Hc'). destruct (decimal_digits l n H) as (H1 & H2 & H3 & _).
  assert (S : strip (32 :: l) = l).
  { unfold strip. cbn [lstrip]. change (is_space 32) with true. cbn iota. change (strip l = l). rewrite E in *. apply (strip_id c r r' c'); [exact E'|now apply digit_plain|now apply digit_plain]. }
  unfold parse_int. rewrite S. assert (P : parse_digits l = Some n) by (unfold parse_digits; destruct l; [contradiction|]; rewrite H2, H3; reflexivity).
  rewrite E in *. destruct (digit_plain c Hc) as (_ & _ & _ & N1 & N2).
  destruct c as [|p|p]; [exact P| |exact P]. repeat (destruct p as [p|p|]; try exact P; try (exfalso; apply N1; reflexivity); try (exfalso; apply N2; reflexivity)).
Qed.

(** a line with a key *)
Lemma key_line k d n : decimal d n -> In k [processor; physical_id; cpu_cores] -> let l := k ++ [9; 58; 32] ++ d in
  lower (strip l) = l /\ l <> [] /\ ~ In 10 l /\ lower l = l.
Proof.
  intros H Hk l. destruct (decimal_parts d n H) as (c & r & E & Hc & r' & c' & E' & Hc'). destruct (decimal_digits d n H) as (_ & Hd & _).
  assert (K : exists c0 k', k = c0 :: k' /\ is_space c0 = false /\ lower k = k /\ ~ In 10 k).
  { cbn [In] in Hk. destruct Hk as [<-|[<-|[<-|[]]]]; eexists _, _; (split; [reflexivity|]); (split; [reflexivity|]); (split; [reflexivity|]); cbn; lia. }
  destruct K as (c0 & k' & -> & K1 & K2 & K3).
  assert (S : strip l = l).
  { unfold l. cbn [app]. apply (strip_id c0 _ (c0 :: k' ++ [9; 58; 32] ++ r') c'); [rewrite E'; cbn [app]; rewrite <- !app_assoc; reflexivity|exact K1|now apply digit_plain]. }
  assert (L : lower l = l). { unfold l, lower. rewrite !map_app. change (map lower1 (c0 :: k')) with (lower (c0 :: k')). rewrite K2. change (map lower1 d) with (lower d). rewrite (lower_digits d Hd). reflexivity. }
  split; [rewrite S; exact L|]. split; [discriminate|]. split; [|exact L].
  unfold l. rewrite !in_app_iff. intros [X|[X|X]]; [exact (K3 X)|cbn in X; lia|]. rewrite forallb_forall in Hd. specialize (Hd 10 X). discriminate.
Qed.

Lemma lines_line t r : forall cur, ~ In 10 t -> lines_from cur (t ++ 10 :: r) = (rev cur ++ t) :: lines_of r.
Proof.
  induction t as [|c t IH]; intros cur H; cbn [app lines_from].
  - change (10 =? 10) with true. cbn iota. now rewrite app_nil_r.
  - cbn [In] in H. destruct (Z.eqb_spec c 10); [exfalso; apply H; now left|]. rewrite IH by tauto. cbn [rev]. now rewrite <- app_assoc.
Qed.
Lemma line_no_newline i : valid_line i -> ~ In 10 (line_text i).
Proof.
  destruct i as [d|d p|d c|l]; cbn [valid_line line_text]; change k_processor with processor; change k_physical with physical_id; change k_cores with cpu_cores.
  - intros [n H]. apply (key_line processor d n H). now left.
  - intros H. apply (key_line physical_id d p H). right. now left.
  - intros H. apply (key_line cpu_cores d c H). right. right. now left.
  - now intros [H _].
Qed.
Lemma lines_body s : forall r, Forall valid_line s -> lines_of (concat (map (fun i => line_text i ++ [10]) s) ++ r) = map line_text s ++ lines_of r.
Proof.
  induction s as [|i s IH]; intros r H; [reflexivity|]. inversion H as [|? ? H1 H2]; subst. cbn [map concat]. rewrite <- !app_assoc. cbn [app].
  unfold lines_of. rewrite lines_line by now apply line_no_newline. cbn [rev app]. f_equal. now apply IH.
Qed.
Lemma lines_section s r : Forall valid_line s -> lines_of (section_text s ++ r) = map line_text s ++ [] :: lines_of r.
Proof. intros H. unfold section_text. rewrite <- app_assoc, lines_body by exact H. cbn [app]. f_equal. Qed.

Definition last_phys (s : list info_line) (a : option Z) : option Z := fold_left (fun a i => match i with Phys _ p => Some p | _ => a end) s a.
Definition last_cores (s : list info_line) (a : option Z) : option Z := fold_left (fun a i => match i with Cores _ p => Some p | _ => a end) s a.
Lemma text_eqb_refl k : text_eqb k k = true.
Proof. unfold text_eqb. now destruct (text_dec k k). Qed.
Lemma text_eqb_neq k l : k <> l -> text_eqb k l = false.
Proof. unfold text_eqb. now destruct (text_dec k l). Qed.
Lemma get_set_same k v (d : list (text * Z)) : get text_eqb k (set text_eqb k v d) = Some v.
Proof. unfold get, set. cbn [find fst]. now rewrite text_eqb_refl. Qed.
Lemma get_set_other k k' v (d : list (text * Z)) : k <> k' -> get text_eqb k (set text_eqb k' v d) = get text_eqb k d.
Proof.
  intros N. unfold get, set. cbn [find fst]. rewrite (text_eqb_neq k' k) by congruence.
  assert (H : find (fun e : text * Z => text_eqb (fst e) k) (filter (fun e => negb (text_eqb (fst e) k')) d) = find (fun e => text_eqb (fst e) k) d); [|now rewrite H].
  induction d as [|e d IH]; [reflexivity|]. cbn [filter find]. destruct (text_dec (fst e) k') as [E|E].
  - rewrite E, text_eqb_refl, (text_eqb_neq k' k) by congruence. exact IH.
  - rewrite (text_eqb_neq (fst e) k') by exact E. cbn [negb find]. destruct (text_eqb (fst e) k); [reflexivity|exact IH].
Qed.
Lemma split_key k d : In k [physical_id; cpu_cores] -> split_tab_colon (k ++ [9; 58; 32] ++ d) = Some (k, 32 :: d).
Proof. cbn [In]. intros [<-|[<-|[]]]; reflexivity. Qed.

Lemma sections_line i ls mapping cur : valid_line i ->
  sections (line_text i :: ls) mapping cur =
  sections ls mapping (match i with Phys _ p => set text_eqb physical_id p cur | Cores _ c => set text_eqb cpu_cores c cur | _ => cur end).
Proof.
  assert (D : sections (line_text i :: ls) mapping cur = let line := lower (strip (line_text i)) in
     match line with [] => sections (line_text i :: ls) mapping cur | _ => if startswith physical_id line || startswith cpu_cores line then
               match split_tab_colon line with
               | None => Raise ValueError
               | Some (k, v) => match parse_int v with None => Raise ValueError | Some z => sections ls mapping (set text_eqb k z cur) end
               end
             else sections ls mapping cur end).
  { cbn [sections]. cbv zeta. destruct (lower (strip (line_text i))); reflexivity. }
  rewrite D. clear D. cbv zeta.
  destruct i as [d|d p|d c|l]; cbn [valid_line line_text]; change k_processor with processor; change k_physical with physical_id; change k_cores with cpu_cores.
  - intros [n H]. destruct (key_line processor d n H) as (K1 & K2 & _); [now left|]. rewrite K1. reflexivity.
  - intros H. destruct (key_line physical_id d p H) as (K1 & K2 & _); [right; now left|]. rewrite K1. rewrite split_key by now left. rewrite (parse_decimal d p H). reflexivity.
  - intros H. destruct (key_line cpu_cores d c H) as (K1 & K2 & _); [right; right; now left|]. rewrite K1. rewrite split_key by (right; now left). rewrite (parse_decimal d c H). reflexivity.
  - intros (_ & (x & Hx & Hs) & K). destruct K as (_ & K1 & K2). apply rest_plain in K1, K2. destruct K1 as [K1 _], K2 as [K2 _]. apply not_white in Hs. change k_physical with physical_id in K1. change k_cores with cpu_cores in K2. rewrite K1, K2. cbn [orb].
    destruct (lower (strip l)) as [|z zs] eqn:E; [exfalso|reflexivity].
    assert (L : forall a, In x a -> exists a', In x a' /\ lstrip a = a').
    { clear -Hs. induction a as [|c a IH]; [intros []|]. intros Hin. cbn [lstrip]. destruct (is_space c) eqn:Ec; [|eauto]. destruct Hin as [->|Hin]; [congruence|now apply IH]. }
    destruct (L l Hx) as (a1 & I1 & E1). destruct (L (rev a1) (proj1 (in_rev _ _) I1)) as (a2 & I2 & E2).
    unfold lower, strip in E. rewrite E1, E2 in E. apply map_eq_nil in E. apply in_rev in I2. rewrite E in I2. exact I2.
Qed.
Lemma sections_section s : forall ls mapping cur, Forall valid_line s ->
  sections (map line_text s ++ [] :: ls) mapping cur =
  match last_cores s (get text_eqb cpu_cores cur), last_phys s (get text_eqb physical_id cur) with
  | Some c, Some p => sections ls (set Z.eqb p c mapping) [] | _, _ => sections ls mapping [] end.
Proof.
  induction s as [|i s IH]; intros ls mapping cur H.
  - cbn [map app sections last_cores last_phys fold_left]. reflexivity.
  - inversion H as [|? ? H1 H2]; subst. change (map line_text (i :: s) ++ [] :: ls) with (line_text i :: (map line_text s ++ [] :: ls)). rewrite sections_line by exact H1. rewrite IH by exact H2. unfold last_cores, last_phys. cbn [fold_left].
    destruct i as [d|d p|d c|l]; try reflexivity.
    + rewrite get_set_same, get_set_other by discriminate. reflexivity.
    + rewrite get_set_same, get_set_other by discriminate. reflexivity.
Qed.
Lemma last_phys_of s p : forall a, map (fun i => match i with Phys _ p => Some p | _ => None end) (filter (fun i => match i with Phys _ _ => true | _ => false end) s) = match p with Some _ => [p] | None => [] end ->
  last_phys s a = match p with Some _ => p | None => a end.
Proof.
  intros a. assert (G : last_phys s a = fold_left (fun a i => match i with Some p => Some p | None => a end)
    (map (fun i => match i with Phys _ p => Some p | _ => None end) (filter (fun i => match i with Phys _ _ => true | _ => false end) s)) a).
  { revert a. induction s as [|i s IH]; intros a; [reflexivity|]. unfold last_phys. cbn [fold_left filter]. destruct i; cbn [map fold_left]; apply IH. }
  rewrite G. intros ->. destruct p; reflexivity.
Qed.
Lemma last_cores_of s p : forall a, map (fun i => match i with Cores _ p => Some p | _ => None end) (filter (fun i => match i with Cores _ _ => true | _ => false end) s) = match p with Some _ => [p] | None => [] end ->
  last_cores s a = match p with Some _ => p | None => a end.
Proof.
  intros a. assert (G : last_cores s a = fold_left (fun a i => match i with Some p => Some p | None => a end)
    (map (fun i => match i with Cores _ p => Some p | _ => None end) (filter (fun i => match i with Cores _ _ => true | _ => false end) s)) a).
  { revert a. induction s as [|i s IH]; intros a; [reflexivity|]. unfold last_cores. cbn [fold_left filter]. destruct i; cbn [map fold_left]; apply IH. }
  rewrite G. intros ->. destruct p; reflexivity.
Qed.

Lemma zset_nodup p c (m : list (Z * Z)) : NoDup (map fst m) -> NoDup (map fst (set Z.eqb p c m)).
Proof.
  intros H. unfold set. cbn [map fst]. constructor.
  - intros Hin. apply in_map_iff in Hin. destruct Hin as ((p' & c') & E & Hin). apply filter_In in Hin. cbn [fst] in *. subst p'. rewrite Z.eqb_refl in Hin. now destruct Hin.
  - induction m as [|(p', c') m IH]; [constructor|]. cbn [map fst] in H. inversion H as [|? ? H1 H2]; subst. cbn [filter fst]. destruct (negb (p' =? p)); [|now apply IH]. cbn [map fst]. constructor; [|now apply IH].
    intros Hin. apply H1. apply in_map_iff in Hin. destruct Hin as (e & E & Hin). apply filter_In in Hin. apply in_map_iff. exists e. tauto.
Qed.
Lemma sections_all procs : forall ss mapping seen,
  Forall2 (fun s pc => describes s (fst pc) (snd pc)) ss procs ->
  (forall p c c', In (Some p, Some c) (seen ++ procs) -> In (Some p, Some c') (seen ++ procs) -> c = c') ->
  NoDup (map fst mapping) -> (forall p c, In (p, c) mapping <-> In (Some p, Some c) seen) ->
  exists pk, sections (lines_of (concat (map section_text ss))) mapping [] = Ok pk /\ NoDup (map fst pk) /\ (forall p c, In (p, c) pk <-> In (Some p, Some c) (seen ++ procs)).
Proof.
  induction procs as [|(p, c) procs IH]; intros ss mapping seen F Hc N M; inversion F as [|s pc ss' pcs D F']; subst.
  - exists mapping. rewrite app_nil_r. auto.
  - cbn [fst snd] in D. destruct D as (V & _ & Dp & Dc). cbn [map concat]. rewrite lines_section, sections_section by exact V.
    rewrite (last_phys_of s p _ Dp), (last_cores_of s c _ Dc). change (get text_eqb cpu_cores []) with (@None Z). change (get text_eqb physical_id []) with (@None Z).
    specialize (IH ss'). replace (seen ++ (p, c) :: procs) with ((seen ++ [(p, c)]) ++ procs) in * by (rewrite <- app_assoc; reflexivity).
    assert (SK : (p = None \/ c = None) -> forall q d, In (q, d) mapping <-> In (Some q, Some d) (seen ++ [(p, c)])).
    { intros HN q d. rewrite in_app_iff, M. cbn [In]. split; [tauto|]. intros [X|[X|[]]]; [exact X|]. injection X as -> ->. destruct HN; discriminate. }
    destruct c as [c|]; [|apply (IH mapping (seen ++ [(p, None)]) F' Hc N); apply SK; now right].
    destruct p as [p|]; [|apply (IH mapping (seen ++ [(None, Some c)]) F' Hc N); apply SK; now left].
    apply (IH (set Z.eqb p c mapping) (seen ++ [(Some p, Some c)]) F' Hc (zset_nodup p c mapping N)).
    intros q d. unfold set. cbn [In]. rewrite filter_In, in_app_iff, M. cbn [In fst]. split.
    + intros [[= -> ->]|[X _]]; tauto.
    + intros [X|[X|[]]]; [|injection X as -> ->; now left]. destruct (Z.eqb_spec q p) as [->|]; [|right; split; [exact X|reflexivity]].
      left. f_equal. apply (Hc p); rewrite !in_app_iff; cbn [In]; tauto.
Qed.

Lemma different_length {A B} (f : A -> B) l n (dec : forall a b : B, {a = b} + {a <> b}) : different f l n -> Z.of_nat (length (nodup dec (map f l))) = n.
Proof.
  intros (vs & N & H & ->). f_equal. apply Permutation_length. apply NoDup_Permutation; [apply NoDup_nodup|exact N|].
  intros v. rewrite nodup_In, in_map_iff, H. split; intros (x & X); exists x; tauto.
Qed.
Lemma strip_name d : d <> [] -> (forall c, In c d -> ~ white c) -> strip (d ++ [10]) = d.
Proof.
  intros N H'. assert (H : forall c, In c d -> is_space c = false) by (intros c Hc; now apply not_white, H'). destruct (exists_last N) as (r' & c' & E). destruct d as [|c r]; [contradiction|]. unfold strip. cbn [app]. rewrite lstrip_id by (apply H; now left).
  change (c :: r ++ [10]) with ((c :: r) ++ [10]). rewrite rev_app_distr. cbn [rev app lstrip]. change (is_space 10) with true. cbn iota. change (rev r ++ [c]) with (rev (c :: r)).
  rewrite E, rev_app_distr. cbn [rev app]. rewrite lstrip_id. { cbn [rev]. now rewrite rev_involutive. } apply H. rewrite E. apply in_or_app. right. now left.
Qed.

(** ======== C81 ======== *)
(** A machine with the topology files: cpu i's file holds the list of the processors of its core, [name (core i)] and a newline; two cores have different
    lists.  The second answer is the number of cores, whatever /proc/cpuinfo says; the newer files are preferred. *)
Theorem C81_sysfs : forall (name : Z -> text) (core : Z -> Z) cpus n info k,
  cpus <> [] -> (forall i, In i cpus -> name (core i) <> [] /\ forall c, In c (name (core i)) -> ~ white c) ->
  (forall i j, In i cpus -> In j cpus -> name (core i) = name (core j) -> core i = core j) ->
  different core cpus n ->
  let files : list text := map (fun i => name (core i) ++ [10]) cpus in
  (forall old, cpu_count_linux (mkMachine (Some k) files old info) = Ok (Some k, Some n)) /\ cpu_count_linux (mkMachine (Some k) [] files info) = Ok (Some k, Some n).
Proof.
  intros name core cpus n info k NE H Inj D files.
  assert (L : Z.of_nat (length (nodup text_dec (map strip files))) = n).
  { unfold files. rewrite map_map. rewrite (map_ext_in _ (fun i => name (core i))) by (intros i Hi; apply strip_name; now apply H).
    apply different_length. destruct D as (vs & N & Hv & ->). exists (map name vs). split; [|split; [|now rewrite map_length]].
    - clear -N Hv Inj. assert (In' : forall a b, In a vs -> In b vs -> name a = name b -> a = b).
      { intros a b Ha Hb E. apply Hv in Ha, Hb. destruct Ha as (i & Hi & <-), Hb as (j & Hj & <-). now apply Inj. }
      clear Hv. induction N as [|v vs Nv N IH]; [constructor|]. cbn [map]. constructor.
      + intros Hin. apply in_map_iff in Hin. destruct Hin as (w & E & Hw). apply Nv. rewrite (In' v w); [exact Hw|now left|now right|now symmetry].
      + apply IH. intros a b Ha Hb. apply In'; now right.
    - intros v. rewrite in_map_iff. split.
      + intros (w & <- & Hw). apply Hv in Hw. destruct Hw as (i & Hi & <-). eauto.
      + intros (i & Hi & <-). exists (core i). split; [reflexivity|]. apply Hv. eauto. }
  assert (P : 0 < n). { rewrite <- L. unfold files. destruct cpus as [|i cpus]; [contradiction|]. cbn [map]. assert (Hin : In (strip (name (core i) ++ [10])) (nodup text_dec (map strip (map (fun i => name (core i) ++ [10]) (i :: cpus))))) by (apply nodup_In; now left).
    cbn [map] in Hin. destruct (nodup text_dec _); [destruct Hin|]. cbn [length]. lia. }
  assert (NF : files <> []) by (unfold files; destruct cpus; [contradiction|discriminate]).
  split; [intros old|]; unfold cpu_count_linux, logical, cpu_physical_linux; cbn [sysconf core_cpus_list thread_siblings_list cpuinfo].
  - clearbody files. destruct files as [|f fs]; [contradiction|]. cbv zeta. unfold text in *. rewrite L. destruct n; [lia|reflexivity|lia].
  - cbv zeta. unfold text in *. rewrite L. destruct n; [lia|reflexivity|lia].
Qed.
Print Assumptions C81_sysfs.

(** No topology files: /proc/cpuinfo, one section per processor.  The cores are added up package by package; None if no section tells both.  The
    processors are counted there too if sysconf does not tell their number. *)
Theorem C81_cpuinfo : forall ss procs n k,
  Forall2 (fun s pc => describes s (fst pc) (snd pc)) ss procs -> ss <> [] ->
  (forall p c c', In (Some p, Some c) procs -> In (Some p, Some c') procs -> c = c') ->
  cores_of_packages procs n ->
  cpu_count_linux (mkMachine k [] [] (Some (concat (map section_text ss)))) =
    Ok (Some (match k with Some k => k | None => Z.of_nat (length ss) end), if n =? 0 then None else Some n).
Proof.
  intros ss procs n k F NE Hc (pk0 & N0 & M0 & ->).
  destruct (sections_all procs ss [] [] F Hc ltac:(constructor) ltac:(cbn; tauto)) as (pk & E & N & M). cbn [app] in M.
  assert (P : Permutation pk pk0).
  { apply NoDup_Permutation; [now apply NoDup_map_inv in N|now apply NoDup_map_inv in N0|]. intros (p, c). now rewrite M, M0. }
  assert (S : fold_right Z.add 0 (map snd pk) = fold_right Z.add 0 (map snd pk0)).
  { clear -P. induction P; cbn [map fold_right]; lia. }
  assert (L : logical (mkMachine k [] [] (Some (concat (map section_text ss)))) = Ok (Some (match k with Some k => k | None => Z.of_nat (length ss) end))).
  { unfold logical. cbn [sysconf cpuinfo]. destruct k as [k|]; [reflexivity|]. cbv zeta.
    assert (C : length (filter (fun l => startswith processor (lower l)) (lines_of (concat (map section_text ss)))) = length ss).
    { clear -F. induction F as [|s pc ss procs (V & (d & D) & _) F IH]; [reflexivity|]. cbn [map concat]. rewrite lines_section by exact V. rewrite filter_app, app_length. cbn [filter]. change (startswith processor (lower [])) with false. cbn iota.
      rewrite IH. cbn [length]. change (S (length ss)) with (1 + length ss)%nat. f_equal.
      change 1%nat with (length [Proc d]). rewrite D. clear -V. induction V as [|i s V1 V2 IH]; [reflexivity|]. cbn [map filter].
      destruct i as [d|d p|d c|l]; cbn [line_text valid_line] in *; change k_processor with processor; change k_physical with physical_id; change k_cores with cpu_cores.
      - destruct V1 as [n V1]. destruct (key_line processor d n V1 ltac:(now left)) as (_ & _ & _ & K). cbv zeta in K. rewrite K. change (startswith processor (processor ++ [9; 58; 32] ++ d)) with true. cbn iota. cbn [length]. f_equal. exact IH.
      - destruct (key_line physical_id d p V1 ltac:(right; now left)) as (_ & _ & _ & K). cbv zeta in K. rewrite K. exact IH.
      - destruct (key_line cpu_cores d c V1 ltac:(right; right; now left)) as (_ & _ & _ & K). cbv zeta in K. rewrite K. exact IH.
      - destruct V1 as (_ & _ & K). destruct K as (K & _). apply rest_plain in K. destruct K as [_ K]. change k_processor with processor in K. rewrite K. exact IH. }
    rewrite C. destruct (Z.eqb_spec (Z.of_nat (length ss)) 0); [destruct ss; [contradiction|discriminate]|reflexivity]. }
  unfold cpu_count_linux. rewrite L. unfold cpu_physical_linux. cbn [core_cpus_list thread_siblings_list map nodup length Z.of_nat cpuinfo]. rewrite E. cbv zeta. now rewrite S.
Qed.
Print Assumptions C81_cpuinfo.

(** Without an empty line after it the last section does not count: one processor alone, and no number of cores. *)
Theorem C81_last_section_refuted : forall s p c k, describes s (Some p) (Some c) -> 0 < c ->
  cpu_count_linux (mkMachine (Some k) [] [] (Some (section_text s))) = Ok (Some k, Some c) /\
  cpu_count_linux (mkMachine (Some k) [] [] (Some (concat (map (fun i => line_text i ++ [10]) s)))) = Ok (Some k, None).
Proof.
  intros s p c k D Hc. split.
  - pose proof (C81_cpuinfo [s] [(Some p, Some c)] c (Some k)) as H. cbn [map concat] in H. rewrite app_nil_r in H. unfold text in *. rewrite H.
    + destruct (Z.eqb_spec c 0); [lia|reflexivity].
    + constructor; [exact D|constructor].
    + discriminate.
    + cbn [In]. intros q a b [[= <- <-]|[]] [[= <-]|[]]. reflexivity.
    + exists [(p, c)]. cbn. split; [repeat constructor; intros []|]. split; [|lia]. intros q d. split; intros [[= <- <-]|[]]; now left.
  - destruct D as (V & _). unfold cpu_count_linux, logical, cpu_physical_linux. cbn [sysconf core_cpus_list thread_siblings_list map nodup length Z.of_nat cpuinfo].
    rewrite <- (app_nil_r (concat _)), lines_body by exact V. cbn [lines_of lines_from]. rewrite app_nil_r.
    assert (E : forall cur, sections (map line_text s) [] cur = Ok []); [|rewrite E; reflexivity].
    induction V as [|i s V1 V2 IH]; intros cur; [reflexivity|]. cbn [map]. rewrite sections_line by exact V1. apply IH.
Qed.
Print Assumptions C81_last_section_refuted.

(** sysconf fails and no line of /proc/cpuinfo begins with "processor": the third way of counting, /proc/stat, is a NameError. *)
Theorem C81_stat_refuted : forall a b ls, (forall l, In l ls -> ~ In 10 l /\ ~ begins k_processor l) ->
  cpu_count_linux (mkMachine None a b (Some (concat (map (fun l => l ++ [10]) ls)))) = Raise NameError.
Proof.
  intros a b ls H. unfold cpu_count_linux, logical. cbn [sysconf cpuinfo]. cbv zeta.
  assert (E : filter (fun l => startswith processor (lower l)) (lines_of (concat (map (fun l => l ++ [10]) ls))) = []); [|unfold text in *; rewrite E; reflexivity].
  induction ls as [|l ls IH]; [reflexivity|]. cbn [map concat]. rewrite <- app_assoc. cbn [app]. unfold lines_of. destruct (H l ltac:(now left)) as [H1 H2]. rewrite lines_line by exact H1. cbn [rev app filter].
  destruct (startswith processor (lower l)) eqn:E; [exfalso; apply H2; change k_processor with processor; now apply startswith_begins|]. apply IH. intros x Hx. apply H. now right.
Qed.
Print Assumptions C81_stat_refuted.

(** Importing pnumpy calls init, which counts although it does not use the counts: where neither the topology files nor /proc/cpuinfo can be seen, or where a
    line of /proc/cpuinfo that begins like the two keys is written otherwise, the import fails and nothing is initialized, though sysconf tells the number. *)
Theorem C81_import_refuted : forall (A : Type) (initialize : res A) k,
  init (mkMachine (Some k) [] [] None) initialize = Raise FileNotFoundError /\
  (forall v rest, Forall (fun c => c <> 10 /\ c <> 58 /\ ~ capital c) v -> init (mkMachine (Some k) [] [] (Some (k_cores ++ v ++ 10 :: rest))) initialize = Raise ValueError).
Proof.
  intros A ini k. split; [reflexivity|]. intros v rest Hv.
  assert (Lv : lower v = v).
  { clear -Hv. induction Hv as [|c v (_ & _ & H) Hv IH]; [reflexivity|]. unfold lower in *. cbn [map]. rewrite IH. f_equal. unfold lower1, capital in *. destruct ((65 <=? c) && (c <=? 90)) eqn:E; lia. }
  change k_cores with cpu_cores. unfold init, cpu_count_linux, logical, cpu_physical_linux. cbn [sysconf core_cpus_list thread_siblings_list map nodup length Z.of_nat cpuinfo].
  unfold lines_of. rewrite app_assoc, lines_line.
  2:{ rewrite in_app_iff. intros [X|X]; [cbn in X; lia|]. rewrite Forall_forall in Hv. now destruct (Hv 10 X). }
  cbn [rev app].
  assert (S : exists w, strip (cpu_cores ++ v) = cpu_cores ++ w /\ Forall (fun c => c <> 58) w /\ lower w = w).
  { assert (G : forall u, exists w z, rev (lstrip (rev (cpu_cores ++ u))) = cpu_cores ++ w /\ u = w ++ z).
    { intros u. induction u as [|c u IH] using rev_ind; [exists [], []; split; reflexivity|]. rewrite app_assoc, rev_app_distr. cbn [rev app lstrip].
      destruct (is_space c).
      - destruct IH as (w & z & E & ->). exists w, (z ++ [c]). rewrite <- app_assoc. auto.
      - exists (u ++ [c]), []. rewrite app_nil_r. split; [|reflexivity]. cbn [rev]. rewrite rev_involutive. now rewrite <- app_assoc. }
    destruct (G v) as (w & z & E & Ev). exists w. split; [unfold strip; cbn [app lstrip is_space cpu_cores] in *; exact E|]. subst v. apply Forall_app in Hv. split; [eapply Forall_impl; [|exact (proj1 Hv)]; cbn; tauto|].
    unfold lower in Lv |- *. rewrite map_app in Lv. clear -Lv. revert Lv. induction w as [|c w IH]; [reflexivity|]. cbn [map app]. intros [= E1 E2]. f_equal; [exact E1|now apply IH]. }
  destruct S as (w & E & W & Lw). cbn [sections]. rewrite E. assert (L : lower (cpu_cores ++ w) = cpu_cores ++ w) by (unfold lower in *; rewrite map_app, Lw; reflexivity). rewrite L.
  assert (SP : split_tab_colon (cpu_cores ++ w) = None).
  { assert (G : forall u, Forall (fun c => c <> 58) u -> split_tab_colon u = None).
    { induction 1 as [|c u Hc Hu IH]; [reflexivity|]. cbn [split_tab_colon]. rewrite IH. destruct u as [|c' u']; [reflexivity|]. inversion Hu as [|? ? N _]; subst.
      destruct c' as [|q|q]; try reflexivity. repeat (destruct q as [q|q|]; try reflexivity). exfalso. now apply N. }
    apply G. apply Forall_app. split; [repeat constructor; discriminate|exact W]. }
  cbn [app cpu_cores] in *. rewrite SP. reflexivity.
Qed.
Print Assumptions C81_import_refuted.

(** the hypotheses: two packages of two cores, four processors; and the siblings' files of a machine with two cores and four processors *)
Definition demo_section (n p : Z) : list info_line := [Proc [48 + n]; Rest [109; 111; 100; 101; 108]; Phys [48 + p] p; Cores [50] 2].
Example C81_nonvacuous :
  Forall2 (fun s pc => describes s (fst pc) (snd pc)) [demo_section 0 0; demo_section 1 0; demo_section 2 1; demo_section 3 1] [(Some 0, Some 2); (Some 0, Some 2); (Some 1, Some 2); (Some 1, Some 2)] /\
  cores_of_packages [(Some 0, Some 2); (Some 0, Some 2); (Some 1, Some 2); (Some 1, Some 2)] 4 /\
  different (fun i => i mod 2) [0; 1; 2; 3] 2.
Proof.
  split; [|split].
  - assert (D : forall n p, 0 <= n <= 9 -> 0 <= p <= 9 -> describes (demo_section n p) (Some p) (Some 2)).
    { intros n p Hn Hp. split; [|repeat split; eexists; reflexivity]. constructor; [exists n; now constructor|]. constructor.
      { cbn [valid_line In]. split; [lia|]. split; [exists 109; split; [now left|unfold white; lia]|].
        assert (G : forall b k, b <> 109 -> ~ begins_after_space (b :: k) [109; 111; 100; 101; 108]).
        { intros b k Nb (u & r & E & W & (v & rest & -> & F)). destruct u as [|c u]; cbn [app] in E; [|injection E as <- _; inversion W as [|? ? X _]; unfold white in X; lia].
          inversion F as [|? ? ? ? X _]; subst. cbn [app] in E. injection E as <- _. unfold capital in X. lia. }
        repeat split; (apply G; cbn; lia). }
      constructor; [now constructor|]. constructor; [exact (dec_one 2 ltac:(lia))|constructor]. }
    repeat (constructor; [apply D; lia|]). constructor.
  - exists [(0, 2); (1, 2)]. split; [repeat constructor; cbn; lia|]. split; [|reflexivity]. intros p c. cbn [In]. split.
    + intros [[= <- <-]|[[= <- <-]|[]]]; tauto.
    + intros [[= <- <-]|[[= <- <-]|[[= <- <-]|[[= <- <-]|[]]]]]; tauto.
  - exists [0; 1]. split; [repeat constructor; cbn; lia|]. split; [|reflexivity]. intros v. cbn [In]. split.
    + intros [<-|[<-|[]]]; [exists 0|exists 1]; (split; [tauto|reflexivity]).
    + intros (x & [<-|[<-|[<-|[<-|[]]]]] & <-); tauto.
Qed.
