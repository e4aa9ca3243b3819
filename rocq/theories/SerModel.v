(** Model of maf's binary serialization:
    include/maf/utils/serialization/{IByteStream,OByteStream,Serializer,VariantSerializer,Tuplizable}.h.

    Types are a closed universe [ty]; [interp t] is the Coq type of the C++ objects of type [t].
    Out of the model: long double padding, bool trap values, unordered / multi containers and containers with a
    custom comparator, class types with user-written _serialize overloads, allocation failure
    (resize/reserve of huge sizes throwing bad_alloc), default member initialisers. *)
From Verif Require Export Bytes.

Local Open Scope N_scope.

(** SizeType = uint32_t (Serializer.h:42); size_t is 64 bit. *)
Definition two32 : N := 2 ^ 32.
Definition two64 : N := 2 ^ 64.
(** std::string::max_size() on 64-bit libstdc++ is 2^63-1. *)
Definition max_buffer : N := 2 ^ 63.
Definition len {A} (l : list A) : N := N.of_nat (length l).

(** * Streams *)

(** BasicIByteStream (IByteStream.h:11-73): buffer_, readingPos_ and the three bits of state_.
    [oob] is a ghost bit: memcpy was asked to copy from outside the buffer (undefined behaviour). *)
Record istream := IS
  { ibuf : list byte; ipos : N; igood : bool; ifail : bool; ieof : bool; oob : bool }.

(** IByteStream.h:21-22 (default arguments): a stream over [b]. *)
Definition istream_of (b : list byte) : istream := IS b 0 true false false false.

Definition slice (b : list byte) (p n : N) : list byte :=
  firstn (N.to_nat n) (skipn (N.to_nat p) b).

(** BasicIByteStream::read (IByteStream.h:32-46).  [None]: nothing was copied into the target.
    [readingPos_ + size] is computed in size_t, i.e. modulo 2^64. *)
Definition read (s : istream) (size : N) : istream * option (list byte) :=
  if igood s then
    let e := (ipos s + size) mod two64 in
    if len (ibuf s) <? e then
      (IS (ibuf s) (ipos s) false true (ieof s) (oob s), None)
    else if ipos s + size <=? len (ibuf s) then
      (IS (ibuf s) e true (ifail s) (ieof s || (e =? len (ibuf s))) (oob s),
       Some (slice (ibuf s) (ipos s) size))
    else (* the addition wrapped around: memcpy reads past the end of the buffer *)
      (IS (ibuf s) e true (ifail s) (ieof s || (e =? len (ibuf s))) true, None)
  else (IS (ibuf s) (ipos s) false true (ieof s) (oob s), None).

(** BasicIByteStream::clear (IByteStream.h:51): [state_ &= ~state]; the argument's three bits. *)
Definition iclear (s : istream) (g f e : bool) : istream :=
  IS (ibuf s) (ipos s) (igood s && negb g) (ifail s && negb f) (ieof s && negb e) (oob s).

(** BasicIByteStream::reset (IByteStream.h:53-57). *)
Definition ireset (s : istream) : istream := IS [] 0 true false false (oob s).

(** OByteStream (OByteStream.h): data_, currentPos_; state_ is never changed from Good. *)
Record ostream := OS { odata : list byte; opos : nat }.
Definition ostream_new : ostream := OS [] 0.

(** OByteStream::write + prepareNextWrite (OByteStream.h:17-32): grow if needed (resize pads with zero
    bytes), then overwrite [size] bytes at currentPos_. *)
Definition write (o : ostream) (bs : list byte) : ostream :=
  let d := if Nat.ltb (length (odata o)) (opos o + length bs)
           then odata o ++ repeat x00 (opos o + length bs - length (odata o))
           else odata o in
  OS (firstn (opos o) d ++ bs ++ skipn (opos o + length bs) d) (opos o + length bs).

(** * Types and values *)

Inductive ty :=
| TNum (w : nat) (signed : bool)  (* arithmetic / enum type of w bytes *)
| TStr (w : nat)                  (* std::basic_string, sizeof(CharT) = w *)
| TSeq (t : ty)                   (* back-insertible container: vector, list, deque *)
| TSet (t : ty)                   (* std::set *)
| TMap (k v : ty)                 (* std::map *)
| TPair (a b : ty)                (* std::pair *)
| TTup (l : tys)                  (* std::tuple *)
| TStruct (l : tys)               (* tuplizable class or aggregate: serialized as the tuple of its fields *)
| TPtr (smart : bool) (t : ty)    (* T* / unique_ptr / shared_ptr *)
| TVar (t : ty) (l : tys)         (* std::variant<t, l...> *)
with tys := TNil | TCons (t : ty) (l : tys).

Scheme ty_mind := Induction for ty Sort Prop
  with tys_mind := Induction for tys Sort Prop.
Combined Scheme ty_tys_ind from ty_mind, tys_mind.

(** A number is its object representation; [Indet] is an uninitialised one. *)
Inductive num := Num (n : N) | Indet.

Fixpoint interp (t : ty) : Type :=
  match t with
  | TNum _ _ => num
  | TStr _ => list N
  | TSeq t => list (interp t)
  | TSet t => list (interp t)
  | TMap k v => list (interp k * interp v)
  | TPair a b => interp a * interp b
  | TTup l => tup l
  | TStruct l => tup l
  | TPtr _ t => option (interp t)
  | TVar t l => interp t + sumt l
  end
with tup (l : tys) : Type :=
  match l with TNil => unit | TCons t l => (interp t * tup l)%type end
with sumt (l : tys) : Type :=
  match l with TNil => Empty_set | TCons t l => (interp t + sumt l)%type end.

(** Value-initialisation [T{}] (numbers become 0). *)
Fixpoint vinit (t : ty) : interp t :=
  match t with
  | TNum _ _ => Num 0
  | TStr _ => []
  | TSeq _ => []
  | TSet _ => []
  | TMap _ _ => []
  | TPair a b => (vinit a, vinit b)
  | TTup l => vinits l
  | TStruct l => vinits l
  | TPtr _ _ => None
  | TVar t _ => inl (vinit t)
  end
with vinits (l : tys) : tup l :=
  match l with TNil => tt | TCons t l => (vinit t, vinits l) end.

(** Default-initialisation [T x;] as used for container elements (Serializer.h:277) and variant alternatives
    (VariantSerializer.h:34): numbers are indeterminate, pair/tuple value-initialise their members. *)
Fixpoint dinit (t : ty) : interp t :=
  match t with
  | TNum _ _ => Indet
  | TStruct l => dinits l
  | TPair a b => (vinit a, vinit b)
  | TTup l => vinits l
  | TStr _ => []
  | TSeq _ => []
  | TSet _ => []
  | TMap _ _ => []
  | TPtr _ _ => None
  | TVar t _ => inl (vinit t)
  end
with dinits (l : tys) : tup l :=
  match l with TNil => tt | TCons t l => (dinit t, dinits l) end.

(** std::less on keys of ordered containers: numbers by value (two's complement if signed),
    strings and sequences lexicographically, pairs/tuples lexicographically, variants by index then value.
    Structs and pointers have no (modelled) order: [false]. *)
Definition num_key (w : nat) (signed : bool) (n : N) : Z :=
  if signed && (256 ^ N.of_nat w <=? 2 * n) then (Z.of_N n - Z.of_N (256 ^ N.of_nat w))%Z else Z.of_N n.

Fixpoint lex {A} (lt : A -> A -> bool) (x y : list A) : bool :=
  match x, y with
  | _, [] => false
  | [], _ :: _ => true
  | a :: x', b :: y' => if lt a b then true else if lt b a then false else lex lt x' y'
  end.

Fixpoint vlt (t : ty) : interp t -> interp t -> bool :=
  match t with
  | TNum w sg => fun a b =>
      match a, b with Num x, Num y => (num_key w sg x <? num_key w sg y)%Z | _, _ => false end
  | TStr _ => lex N.ltb
  | TSeq t => lex (vlt t)
  | TSet t => lex (vlt t)
  | TMap k v => lex (fun a b => if vlt k (fst a) (fst b) then true
                                else if vlt k (fst b) (fst a) then false else vlt v (snd a) (snd b))
  | TPair a b => fun x y => if vlt a (fst x) (fst y) then true
                            else if vlt a (fst y) (fst x) then false else vlt b (snd x) (snd y)
  | TTup l => vlts l
  | TStruct _ => fun _ _ => false
  | TPtr _ _ => fun _ _ => false
  | TVar t l => fun x y =>
      match x, y with
      | inl a, inl b => vlt t a b
      | inl _, inr _ => true
      | inr _, inl _ => false
      | inr a, inr b => slt l a b
      end
  end
with vlts (l : tys) : tup l -> tup l -> bool :=
  match l with
  | TNil => fun _ _ => false
  | TCons t l => fun x y => if vlt t (fst x) (fst y) then true
                            else if vlt t (fst y) (fst x) then false else vlts l (snd x) (snd y)
  end
with slt (l : tys) : sumt l -> sumt l -> bool :=
  match l with
  | TNil => fun _ _ => false
  | TCons t l => fun x y =>
      match x, y with
      | inl a, inl b => vlt t a b
      | inl _, inr _ => true
      | inr _, inl _ => false
      | inr a, inr b => slt l a b
      end
  end.

(** std::set::insert / std::map::insert: keep the list sorted by key, do nothing when an equivalent key is
    present. *)
Fixpoint insert_sorted {A} (lt : A -> A -> bool) (x : A) (l : list A) : list A :=
  match l with
  | [] => [x]
  | y :: r => if lt x y then x :: y :: r
              else if lt y x then y :: insert_sorted lt x r
              else y :: r
  end.

(** * serialize (Serializer.h:106-403, VariantSerializer.h:13-24) *)

(** Number/enum (Serializer.h:169-172).  Serializing an indeterminate value copies arbitrary bytes: we pick 0. *)
Definition ser_num (w : nat) (n : num) (o : ostream) : ostream :=
  write o (le w (match n with Num n => n | Indet => 0 end)).

(** [SizeType] object (used for counts and variant indices): static_cast<uint32_t>. *)
Definition ser_size (n : N) (o : ostream) : ostream := write o (le 4 (n mod two32)).

Definition chars (w : nat) (s : list N) : list byte := concat (map (le w) s).

(** basic_string (Serializer.h:362-369): the low sizeof(SizeType) bytes of the size_t size, then the characters. *)
Definition ser_str (w : nat) (s : list N) (o : ostream) : ostream :=
  let o1 := write o (firstn 4 (le 8 (len s))) in
  match s with [] => o1 | _ => write o1 (chars w s) end.

Fixpoint ser (t : ty) : interp t -> ostream -> ostream :=
  match t with
  | TNum w _ => ser_num w
  | TStr w => ser_str w
  (* iterable (Serializer.h:257-264) *)
  | TSeq t => fun c o => fold_left (fun o e => ser t e o) c (ser_size (len c) o)
  | TSet t => fun c o => fold_left (fun o e => ser t e o) c (ser_size (len c) o)
  | TMap k v => fun c o => fold_left (fun o e => ser v (snd e) (ser k (fst e) o)) c (ser_size (len c) o)
  (* pair (Serializer.h:309-312) *)
  | TPair a b => fun p o => ser b (snd p) (ser a (fst p) o)
  (* tuple (Serializer.h:336-339); struct (Serializer.h:125-130, 153-156) *)
  | TTup l => sers l
  | TStruct l => sers l
  (* pointers (Serializer.h:189-202, 232-235) *)
  | TPtr _ t => fun p o => match p with
                           | Some v => ser t v (write o [x01])
                           | None => write o [x00]
                           end
  (* variant (VariantSerializer.h:13-24) *)
  | TVar t l => fun v o => match v with
                           | inl a => ser t a (ser_size 0 o)
                           | inr b => ser_alt l 1 b o
                           end
  end
with sers (l : tys) : tup l -> ostream -> ostream :=
  match l with
  | TNil => fun _ o => o
  | TCons t l => fun p o => sers l (snd p) (ser t (fst p) o)
  end
with ser_alt (l : tys) (i : N) : sumt l -> ostream -> ostream :=
  match l with
  | TNil => fun v _ => match v with end
  | TCons t l => fun v o => match v with
                            | inl a => ser t a (ser_size i o)
                            | inr b => ser_alt l (i + 1) b o
                            end
  end.

(** * serializedSize (Serializer.h:121-123,147-151,164-167,180-187,227-230,248-255,304-307,328-334,358-360).
      All additions are in uint32_t.  There is no overload for std::variant: [has_size]. *)
Fixpoint has_size (t : ty) : bool :=
  match t with
  | TNum _ _ | TStr _ => true
  | TSeq t | TSet t | TPtr _ t => has_size t
  | TMap a b | TPair a b => has_size a && has_size b
  | TTup l | TStruct l => has_sizes l
  | TVar _ _ => false
  end
with has_sizes (l : tys) : bool :=
  match l with TNil => true | TCons t l => has_size t && has_sizes l end.

Definition add32 (a b : N) : N := (a + b) mod two32.

Fixpoint ssize (t : ty) : interp t -> N :=
  match t with
  | TNum w _ => fun _ => N.of_nat w
  | TStr w => fun s => add32 4 ((len s * N.of_nat w) mod two32)
  | TSeq t => fun c => add32 4 (fold_left (fun n e => add32 n (ssize t e)) c 0)
  | TSet t => fun c => add32 4 (fold_left (fun n e => add32 n (ssize t e)) c 0)
  | TMap k v => fun c => add32 4 (fold_left (fun n e => add32 n (add32 (ssize k (fst e)) (ssize v (snd e)))) c 0)
  | TPair a b => fun p => add32 (ssize a (fst p)) (ssize b (snd p))
  | TTup l => fun p => ssizes l 0 p
  | TStruct l => fun p => ssizes l 0 p
  | TPtr _ t => fun p => match p with Some v => add32 1 (ssize t v) | None => 1 end
  | TVar _ _ => fun _ => 0 (* does not compile *)
  end
with ssizes (l : tys) (acc : N) : tup l -> N :=
  match l with
  | TNil => fun _ => acc
  | TCons t l => fun p => ssizes l (add32 acc (ssize t (fst p))) (snd p)
  end.

(** * deserialize *)

(** Result: return value, the new contents of the target, the stream. *)
Definition dres (A : Type) : Type := bool * A * istream.

(** Number/enum (Serializer.h:174-178). *)
Definition de_num (w : nat) (old : num) (s : istream) : dres num :=
  let '(s', r) := read s (N.of_nat w) in
  (negb (ifail s'), match r with Some bs => Num (un_le bs) | None => old end, s').

(** A local [SizeType size = 0;] read with the number overload. *)
Definition de_size (s : istream) : bool * N * istream :=
  let '(s', r) := read s 4 in
  (negb (ifail s'), match r with Some bs => un_le bs | None => 0 end, s').

(** std::basic_string::resize. *)
Definition resize (n : N) (l : list N) : list N :=
  firstn (N.to_nat n) l ++ repeat 0 (N.to_nat n - length l).

Fixpoint unchars (w n : nat) (bs : list byte) : list N :=
  match n with
  | O => []
  | S n' => un_le (firstn w bs) :: unchars w n' (skipn w bs)
  end.

(** basic_string (Serializer.h:371-380). *)
Definition de_str (w : nat) (old : list N) (s : istream) : dres (list N) :=
  let '(ok, size, s1) := de_size s in
  if ok then
    if 0 <? size then
      let '(s2, r) := read s1 (size * N.of_nat w) in
      (negb (ifail s2),
       match r with Some bs => unchars w (N.to_nat size) bs | None => resize size old end, s2)
    else (negb (ifail s1), old, s1)
  else (negb (ifail s1), old, s1).

(** The element loop of the iterable overload (Serializer.h:276-287); [success] is already true when the loop is
    entered and only ever or-ed, so the break is never taken, but the code is followed literally. *)
Fixpoint de_loop {A} (d : istream -> dres A) (add : list A -> A -> list A)
         (n : nat) (success : bool) (c : list A) (s : istream) : dres (list A) :=
  match n with
  | O => (success, c, s)
  | S n' =>
      let '(ok, e, s') := d s in
      let success' := success || ok in
      if success' then de_loop d add n' success' (add c e) s' else (success', c, s')
  end.

(** Iterable overload (Serializer.h:266-290). *)
Definition de_iter {A} (d : istream -> dres A) (add : list A -> A -> list A)
           (old : list A) (s : istream) : dres (list A) :=
  let '(ok, size, s1) := de_size s in
  if ok && (0 <? size) then de_loop d add (N.to_nat size) ok old s1 else (ok, old, s1).

(** pair (Serializer.h:314-320). *)
Definition de_pair {A B} (da : A -> istream -> dres A) (db : B -> istream -> dres B)
           (old : A * B) (s : istream) : dres (A * B) :=
  let '(ok1, a, s1) := da (fst old) s in
  if ok1 then
    let '(ok2, b, s2) := db (snd old) s1 in (ok1 || ok2, (a, b), s2)
  else (ok1, (a, snd old), s1).

(** raw pointer (Serializer.h:204-225); [fresh] is [new T{}]. *)
Definition de_rawptr {A} (d : A -> istream -> dres A) (fresh : A) (s : istream) : dres (option A) :=
  let '(s1, r) := read s 1 in
  let isNotNull := match r with Some bs => un_le bs | None => 0 end in
  if isNotNull =? 0 then (true, None, s1)
  else let '(ok, v, s2) := d fresh s1 in
       if ok then (ok, Some v, s2) else (ok, None, s2).

(** smart pointer (Serializer.h:237-246): the old pointee is kept on failure. *)
Definition de_smartptr {A} (d : A -> istream -> dres A) (fresh : A) (old : option A) (s : istream)
  : dres (option A) :=
  let '(ok, p, s1) := de_rawptr d fresh s in
  if ok then (ok, p, s1) else (ok, old, s1).

(** variant alternative (VariantSerializer.h:31-44). *)
Definition de_altval {A B} (d : A -> istream -> dres A) (fresh : A) (inj : A -> B) (old : B) (s : istream)
  : dres B :=
  let '(ok, e, s1) := d fresh s in
  if ok then (true, inj e, s1) else (false, old, s1).

Definition push_back {A} (c : list A) (e : A) : list A := c ++ [e].

Fixpoint de (t : ty) : interp t -> istream -> dres (interp t) :=
  match t with
  | TNum w _ => de_num w
  | TStr w => de_str w
  | TSeq t => de_iter (fun s => de t (dinit t) s) push_back
  | TSet t => de_iter (fun s => de t (dinit t) s) (fun c e => insert_sorted (vlt t) e c)
  (* DeserializableType<pair<const K,V>> is pair<K,V>, value-initialised members (Serializer.h:89-92,277) *)
  | TMap k v => de_iter (fun s => de_pair (de k) (de v) (vinit k, vinit v) s)
                        (fun c e => insert_sorted (fun x y => vlt k (fst x) (fst y)) e c)
  | TPair a b => de_pair (de a) (de b)
  | TTup l => de_tup l false
  | TStruct l => de_tup l false
  | TPtr true t => de_smartptr (de t) (vinit t)
  | TPtr false t => fun _ s => de_rawptr (de t) (vinit t) s
  | TVar t l => fun old s =>
      let '(ok, idx, s1) := de_size s in
      if ok then
        if idx =? 0 then de_altval (de t) (dinit t) inl old s1
        else de_alt l (idx - 1) _ inr old s1
      else (false, old, s1)
  end
(* tuple (Serializer.h:341-347): every component is read whatever happened before, success is or-ed *)
with de_tup (l : tys) (success : bool) : tup l -> istream -> dres (tup l) :=
  match l with
  | TNil => fun old s => (success, old, s)
  | TCons t l => fun old s =>
      let '(ok, a, s1) := de t (fst old) s in
      let '(ok', r, s2) := de_tup l (success || ok) (snd old) s1 in
      (ok', (a, r), s2)
  end
(* dispatch on the index (VariantSerializer.h:49-78) *)
with de_alt (l : tys) (idx : N) : forall B : Type, (sumt l -> B) -> B -> istream -> dres B :=
  match l with
  | TNil => fun _ _ old s => (false, old, s)
  | TCons t l => fun B inj old s =>
      if idx =? 0 then de_altval (de t) (dinit t) (fun a => inj (inl a)) old s
      else de_alt l (idx - 1) B (fun b => inj (inr b)) old s
  end.

(** A sequence of calls of BasicIByteStream::read (IByteStream.h:32-46). *)
Fixpoint run_reads (s : istream) (sizes : list N) : list (option (list byte)) * istream :=
  match sizes with
  | [] => ([], s)
  | n :: r => let '(s1, o) := read s n in let '(os, s2) := run_reads s1 r in (o :: os, s2)
  end.

(** * Sequences of values of different types *)
Definition anyval : Type := {t : ty & interp t}.
Definition ser_any (a : anyval) (o : ostream) : ostream := ser (projT1 a) (projT2 a) o.

(** SR::operator<< repeated (Serializer.h:457-461). *)
Definition ser_all (vs : list anyval) (o : ostream) : ostream := fold_left (fun o a => ser_any a o) vs o.

(** DSR::operator>> repeated into fresh objects (Serializer.h:475-481); [None]: std::runtime_error. *)
Fixpoint de_all (ts : list ty) (s : istream) : option (list anyval) * istream :=
  match ts with
  | [] => (Some [], s)
  | t :: ts' =>
      let '(ok, v, s1) := de t (dinit t) s in
      if ok then let '(r, s2) := de_all ts' s1 in
                 (match r with Some l => Some (existT _ t v :: l) | None => None end, s2)
      else (None, s1)
  end.
