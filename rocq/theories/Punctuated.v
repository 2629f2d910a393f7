(** [Punctuated<T>]: src/punctuated.rs. *)
From Verif Require Export Ast.

(** [Punct::new(c, s)] from proc_macro2: call-site span. *)
Definition punct_new (c : ascii) (s : spacing) : punct := mkPunct c s call_site.

(** [Punctuated::new], src/punctuated.rs:17-22. *)
Definition pu_new {A} : punctuated A := mkPunctuated [] false.

(** [Punctuated::push], src/punctuated.rs:29-33. *)
Definition pu_push {A} (p : punctuated A) (value : A) (comma : option punct) : punctuated A :=
  let skip := match comma with None => true | Some _ => false end in
  let c := match comma with Some c => c | None => punct_new "," Alone end in
  mkPunctuated (pu_inner p ++ [(value, c)]) skip.

(** [Vec::insert(index, x)] for [index <= len] (used at src/punctuated.rs:47-48). *)
Definition vec_insert {A} (l : list A) (index : nat) (x : A) : list A :=
  firstn index l ++ x :: skipn index l.

(** [Punctuated::len] and [is_empty], src/punctuated.rs:69-76. *)
Definition pu_len {A} (p : punctuated A) : nat := List.length (pu_inner p).
Definition pu_is_empty {A} (p : punctuated A) : bool :=
  match pu_inner p with [] => true | _ => false end.

(** [Punctuated::insert], src/punctuated.rs:41-50. *)
Definition pu_insert {A} (p : punctuated A) (index : nat) (value : A) (comma : option punct)
  : outcome (punctuated A) :=
  if negb (Nat.leb index (pu_len p)) then Panic PInsertIndex
  else if Nat.eqb index (pu_len p) then Ret (pu_push p value comma)
  else Ret (mkPunctuated (vec_insert (pu_inner p) index (value, punct_new "," Alone))
                         (pu_skip_last p)).

(** [Punctuated::items], src/punctuated.rs:53-55. *)
Definition pu_items {A} (p : punctuated A) : list A := map fst (pu_inner p).

(** [Punctuated::punct], src/punctuated.rs:58-66. *)
Definition pu_punct {A} (p : punctuated A) : list punct :=
  let len := List.length (pu_inner p) in
  let slice := if pu_skip_last p && Nat.ltb 0 len then firstn (len - 1) (pu_inner p)
               else pu_inner p in
  map snd slice.

(** [ToTokens for Punctuated<T>], src/punctuated.rs:97-112.  A [ToTokens] impl appends
    to a stream; here it returns the appended tokens. *)
Fixpoint print_inner {A} (pr : A -> list tok) (skip_last : bool) (l : list (A * punct)) : list tok :=
  match l with
  | [] => []
  | [(x, c)] => pr x ++ (if skip_last then [] else [TPunct c])
  | (x, c) :: r => pr x ++ TPunct c :: print_inner pr skip_last r
  end.
Definition print_punctuated {A} (pr : A -> list tok) (p : punctuated A) : list tok :=
  print_inner pr (pu_skip_last p) (pu_inner p).
