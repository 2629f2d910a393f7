(** Specification for C04: how the printed form of a parsed item may differ from the source
    tokens.  [lossy src out]: [out] is [src] up to the edits listed, at any depth.  Every edit
    is tied to its context in the source tokens. *)
From Verif Require Export Tokens.

(** A visibility: [pub], [crate] or [pub(..)]. *)
Inductive visibility : list tok -> Prop :=
| vis_pub i : id_is "pub" i = true -> visibility [TIdent i]
| vis_crate i : id_is "crate" i = true -> visibility [TIdent i]
| vis_pub_in i s sp : id_is "pub" i = true -> visibility [TIdent i; TGroup (mkGroup Parenthesis s sp)].

(** The tokens start an impl ([impl] or [unsafe impl]) or a macro call (identifier, [!]). *)
Definition starts_impl_or_macro (ts : list tok) : Prop :=
  match ts with
  | TIdent i :: t :: _ =>
      id_is "impl" i = true \/ (id_is "unsafe" i = true /\ is_ident "impl" t = true)
      \/ is_punct "!" t = true
  | _ => False
  end.

(** [name : ] or [mut name : ]. *)
Definition starts_typed_param (ts : list tok) : Prop :=
  match ts with
  | TIdent _ :: TPunct c :: _ => p_is ":" c = true
  | TIdent m :: TIdent _ :: TPunct c :: _ => id_is "mut" m = true /\ p_is ":" c = true
  | _ => False
  end.

Definition the_default_comma : tok := TPunct (mkPunct "," Alone call_site).

Inductive lossy : list tok -> list tok -> Prop :=
| lossy_nil : lossy [] []
| lossy_keep t a b : lossy a b -> lossy (t :: a) (t :: b)
| lossy_inside d s s' sp a b :
    lossy s s' -> lossy a b ->
    lossy (TGroup (mkGroup d s sp) :: a) (TGroup (mkGroup d s' sp) :: b)
(* a visibility is dropped in front of an impl or a macro *)
| lossy_vis v a b : visibility v -> starts_impl_or_macro a -> lossy a b -> lossy (v ++ a) b
(* the [;] after the braces of a struct is dropped *)
| lossy_semi s s' sp p a b :
    p_is ";" p = true -> lossy s s' -> lossy a b ->
    lossy (TGroup (mkGroup Brace s sp) :: TPunct p :: a) (TGroup (mkGroup Brace s' sp) :: b)
(* what follows the first group in an attribute is dropped *)
| lossy_attr h bang path g extra sp a b :
    p_is "#" h = true -> forallb (is_punct "!") bang = true ->
    List.length bang <= 1 ->
    (forall g', ~ In (TGroup g') path) ->
    lossy a b ->
    lossy (TPunct h :: bang ++ TGroup (mkGroup Bracket (path ++ TGroup g :: extra) sp) :: a)
          (TPunct h :: bang ++ TGroup (mkGroup Bracket (path ++ [TGroup g]) sp) :: b)
(* [&] and a lifetime are dropped in front of a typed fn parameter *)
| lossy_ref amp lt a b :
    forallb (is_punct "&") amp = true -> List.length amp <= 1 ->
    (lt = [] \/ exists q i, p_is "'" q = true /\ lt = [TPunct q; TIdent i]) ->
    starts_typed_param a -> lossy a b -> lossy (amp ++ lt ++ a) b
(* a comma is added between [self] and the next parameter *)
| lossy_comma_self i a b :
    id_is "self" i = true -> a <> [] -> lossy a b -> lossy (TIdent i :: a) (TIdent i :: the_default_comma :: b)
(* a comma is added between the fields of a variant and the next variant *)
| lossy_comma_variant d s s' sp a b :
    d = Parenthesis \/ d = Brace -> a <> [] -> lossy s s' -> lossy a b ->
    lossy (TGroup (mkGroup d s sp) :: a) (TGroup (mkGroup d s' sp) :: the_default_comma :: b)
(* [static mut : T] gets a second [mut] *)
| lossy_mut k m a b :
    id_is "static" k = true -> id_is "mut" m = true -> (exists c r, a = TPunct c :: r /\ p_is ":" c = true) ->
    lossy a b -> lossy (TIdent k :: TIdent m :: a) (TIdent k :: TIdent m :: TIdent m :: b).
