(** Specification of the wire format and of what reading into an existing object gives.
    Uses the universe of types from SerModel and the record of stream fields; the only stream function used is in [bytes_of]. *)
From Verif Require Import SerModel.
Local Open Scope N_scope.

(** ** The wire format of a value, as plain byte concatenation *)
Definition count4 (n : N) : list byte := le 4 n.

Fixpoint enc (t : ty) : interp t -> list byte :=
  match t with
  | TNum w _ => fun v => match v with Num n => le w n | Indet => le w 0 end
  | TStr w => fun s => count4 (len s) ++ flat_map (le w) s
  | TSeq t => fun c => count4 (len c) ++ flat_map (enc t) c
  | TSet t => fun c => count4 (len c) ++ flat_map (enc t) c
  | TMap k v => fun c => count4 (len c) ++ flat_map (fun e => enc k (fst e) ++ enc v (snd e)) c
  | TPair a b => fun p => enc a (fst p) ++ enc b (snd p)
  | TTup l => encs l
  | TStruct l => encs l
  | TPtr _ t => fun p => match p with Some v => x01 :: enc t v | None => [x00] end
  | TVar t l => fun v => match v with inl a => count4 0 ++ enc t a | inr b => enc_alt l 1 b end
  end
with encs (l : tys) : tup l -> list byte :=
  match l with TNil => fun _ => [] | TCons t l => fun p => enc t (fst p) ++ encs l (snd p) end
with enc_alt (l : tys) (i : N) : sumt l -> list byte :=
  match l with
  | TNil => fun v => match v with end
  | TCons t l => fun v => match v with inl a => count4 i ++ enc t a | inr b => enc_alt l (i + 1) b end
  end.

(** ** Values the format can represent: initialised numbers that fit their width, fewer than 2^32
       characters/elements, ordered containers strictly ordered by their key. *)
Fixpoint pairwise {A} (r : A -> A -> bool) (l : list A) : bool :=
  match l with [] => true | x :: l' => forallb (r x) l' && pairwise r l' end.

Definition before {A} (lt : A -> A -> bool) (x y : A) : bool := lt x y && negb (lt y x).

Definition num_fits (w : nat) (n : num) : bool :=
  match n with Num n => n <? 256 ^ N.of_nat w | Indet => false end.

Fixpoint fits (t : ty) : interp t -> bool :=
  match t with
  | TNum w _ => num_fits w
  | TStr w => fun s => (len s <? 2 ^ 32) && forallb (fun c => c <? 256 ^ N.of_nat w) s
  | TSeq t => fun c => (len c <? 2 ^ 32) && forallb (fits t) c
  | TSet t => fun c => (len c <? 2 ^ 32) && forallb (fits t) c && pairwise (before (vlt t)) c
  | TMap k v => fun c => (len c <? 2 ^ 32) && forallb (fun e => fits k (fst e) && fits v (snd e)) c
                         && pairwise (before (fun x y => vlt k (fst x) (fst y))) c
  | TPair a b => fun p => fits a (fst p) && fits b (snd p)
  | TTup l => fits_all l
  | TStruct l => fits_all l
  | TPtr _ t => fun p => match p with Some v => fits t v | None => true end
  | TVar t l => fun v => match v with inl a => fits t a | inr b => fits_alt l b end
  end
with fits_all (l : tys) : tup l -> bool :=
  match l with TNil => fun _ => true | TCons t l => fun p => fits t (fst p) && fits_all l (snd p) end
with fits_alt (l : tys) : sumt l -> bool :=
  match l with
  | TNil => fun v => match v with end
  | TCons t l => fun v => match v with inl a => fits t a | inr b => fits_alt l b end
  end.

(** ** Types for which a successful read returns true.  An empty tuple/struct always reports failure
       (nothing is ever or-ed into the result), and variants have at most 20 alternatives in C++;
       pointers, variants and pairs propagate the failure of what they contain. *)
Fixpoint count_tys (l : tys) : N :=
  match l with TNil => 0 | TCons _ l => 1 + count_tys l end.

Fixpoint readable (t : ty) : bool :=
  match t with
  | TNum _ _ => true
  | TStr _ => true
  | TSeq t | TSet t => readable t
  | TMap a b => readable a && readable b
  | TPair a b => readable a && readable b
  | TTup l | TStruct l => match l with TNil => false | _ => readables l end
  | TPtr _ t => readable t
  | TVar t l => readable t && readables l && (count_tys l <? 2 ^ 32)
  end
with readables (l : tys) : bool :=
  match l with TNil => true | TCons t l => readable t && readables l end.

(** ** Contents of a target that held [old] after a successful read of [v]:
       numbers, pointers, variants are replaced; a string is replaced unless [v] is empty;
       sequences are extended; ordered containers get the new elements inserted; pairs, tuples and structs
       memberwise. *)
Fixpoint merged (t : ty) : interp t -> interp t -> interp t :=
  match t with
  | TNum _ _ => fun _ v => v
  | TStr _ => fun old v => match v with [] => old | _ => v end
  | TSeq _ => fun old v => old ++ v
  | TSet t => fun old v => fold_left (fun c e => insert_sorted (vlt t) e c) v old
  | TMap k _ => fun old v => fold_left (fun c e => insert_sorted (fun x y => vlt k (fst x) (fst y)) e c) v old
  | TPair a b => fun old v => (merged a (fst old) (fst v), merged b (snd old) (snd v))
  | TTup l => merged_all l
  | TStruct l => merged_all l
  | TPtr _ _ => fun _ v => v
  | TVar _ _ => fun _ v => v
  end
with merged_all (l : tys) : tup l -> tup l -> tup l :=
  match l with
  | TNil => fun _ v => v
  | TCons t l => fun old v => (merged t (fst old) (fst v), merged_all l (snd old) (snd v))
  end.

(** ** A stream in good state whose unread part is exactly [rest] *)
Definition unread (s : istream) (rest : list byte) : Prop :=
  igood s = true /\ ifail s = false /\ oob s = false /\
  ipos s + len rest = len (ibuf s) /\
  skipn (N.to_nat (ipos s)) (ibuf s) = rest /\
  len (ibuf s) < max_buffer.

(** "the target object is freshly constructed": numbers may be indeterminate, everything else empty. *)
Definition fresh (t : ty) (old : interp t) : Prop := old = dinit t \/ old = vinit t.

(** ** Types whose encodings are canonical (every accepted input is the encoding of the result):
       no pointers (any non-zero flag byte is accepted), no variants (an index out of range is reported by the
       variant but swallowed by an enclosing tuple or container), no sets/maps (duplicates are merged), no empty
       tuples. *)
Fixpoint canonical (t : ty) : bool :=
  match t with
  | TNum _ _ => true
  | TStr _ => true
  | TSeq t => canonical t
  | TPair a b => canonical a && canonical b
  | TTup l | TStruct l => match l with TNil => false | _ => canonicals l end
  | _ => false
  end
with canonicals (l : tys) : bool :=
  match l with TNil => true | TCons t l => canonical t && canonicals l end.

(** ** Types whose return value reports a truncated input *)
Fixpoint reports (t : ty) : bool :=
  match t with
  | TNum _ _ => true
  | TStr _ => true
  | TTup (TCons t TNil) | TStruct (TCons t TNil) => reports t
  | TVar t l => reports t && reports_all l
  | _ => false
  end
with reports_all (l : tys) : bool :=
  match l with TNil => true | TCons t l => reports t && reports_all l end.

(** Character / number widths that exist in C++ (at most 16 bytes), needed where an arbitrary count read from the
    input is multiplied by the character width. *)
Fixpoint cpp_widths (t : ty) : bool :=
  match t with
  | TNum w _ => Nat.leb w 16
  | TStr w => Nat.leb w 16
  | TSeq t | TSet t | TPtr _ t => cpp_widths t
  | TMap a b | TPair a b => cpp_widths a && cpp_widths b
  | TTup l | TStruct l => cpp_widths_all l
  | TVar t l => cpp_widths t && cpp_widths_all l
  end
with cpp_widths_all (l : tys) : bool :=
  match l with TNil => true | TCons t l => cpp_widths t && cpp_widths_all l end.

(** ** What a sequence of raw reads on a buffer must give: each read that fits returns the next bytes; the first one
       that does not fit fails, and so does everything after it. *)
Fixpoint spec_reads (rest : list byte) (ok : bool) (sizes : list N) : list (option (list byte)) :=
  match sizes with
  | [] => []
  | n :: sizes' =>
      if ok && (n <=? len rest)
      then Some (firstn (N.to_nat n) rest) :: spec_reads (skipn (N.to_nat n) rest) true sizes'
      else None :: spec_reads rest false sizes'
  end.

Definition is_some {A} (o : option A) : bool := match o with Some _ => true | None => false end.

(** The bytes produced by serializing [v] to a new stream. *)
Definition bytes_of (t : ty) (v : interp t) : list byte := odata (ser t v ostream_new).

(** Types for which the old contents never survive a successful read. *)
Definition overwrites (t : ty) : bool :=
  match t with TNum _ _ | TPtr _ _ | TVar _ _ => true | _ => false end.

(** Types whose object is left alone by a read that reports failure: everything but strings (resized to the announced
    length first) and raw pointers (set to null), and pairs or structs that contain one of those directly. *)
Fixpoint keeps (t : ty) : bool :=
  match t with
  | TStr _ | TPtr false _ => false
  | TPair a b => keeps a
  | TTup l | TStruct l => keeps_all l
  | _ => true
  end
with keeps_all (l : tys) : bool :=
  match l with TNil => true | TCons t l => keeps t && keeps_all l end.
