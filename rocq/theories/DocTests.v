(** The examples in the documentation comments of the crate, run on the model. *)
From Verif Require Import Print Edit Debug Samples PropEdit.
Local Open Scope string_scope.
Local Open Scope list_scope.

Definition kind (i : item) : string :=
  match i with
  | IStruct _ => "struct" | IEnum _ => "enum" | IUnion _ => "union" | IModule _ => "mod" | ITrait _ => "trait" | IImpl _ => "impl"
  | ITypeAlias _ => "type" | IFunction _ => "fn" | IConstant _ => "const" | IUse _ => "use" | IMacro _ => "macro"
  | IExternBlock _ => "extern block" | IExternCrate _ => "extern crate"
  end.
(** The text parses into an item of the stated kind, which prints back the text and parses again. *)
Definition doc_ok (d : string * string) : bool :=
  match parse_item (lex (snd d)) with
  | Ret (Ok i) =>
      String.eqb (kind i) (fst d) && String.eqb (show_tokens (print_item i)) (show_tokens (lex (snd d)))
      && match parse_item (print_item i) with Ret (Ok j) => String.eqb (kind j) (fst d) | _ => false end
  | _ => false
  end.
(** src/types.rs, "Example input". *)
Definition type_docs : list (string * string) :=
  [ ("struct", "struct MyUnitStruct;") (* 14-28, 78-84 *)
  ; ("struct", "struct MyTupleStruct(i32, f32);")
  ; ("struct", "struct MyRegularStruct { }")
  ; ("enum", "enum MyEnum { }") (* 125-129 *)
  ; ("union", "union MyUnion { x: i32, }")
  ; ("fn", "fn foobar() {}")
  ; ("mod", "mod module { }") (* 161-165 *)
  ; ("union", "union MyUnion { }") (* 196-201 *)
  ; ("trait", "trait MyTrait { const N: i32; fn some_fn() -> i32; }") (* 219-224 *)
  ; ("impl", "impl MyType { }") (* 258-263 *)
  ; ("impl", "impl MyTrait for MyType { }") (* 265-270 *)
  ; ("const", "pub const CONSTANT: i32 = 783;") (* 305-312 *)
  ; ("const", "const CONSTANT: i32;")
  ; ("const", "static MUTEX: std::sync::Mutex<i32> = std::sync::Mutex::new(0);")
  ; ("type", "type MyType = i32;") (* 345-347 *)
  ; ("fn", "const fn hello(a: i32, b: f32) -> f32 { return 0; }") (* 366-371 *)
  ; ("fn", "unsafe fn eval(c: String, b: i32) { return; }")
  ; ("fn", "fn do_thing<T: Clone>(t: T) where T: Default;")
  ; ("impl", "impl S { pub fn hello_world(&self, a: i32, b: f32) {} }") (* 408-412 *)
  ; ("fn", "pub fn hello_world(a: i32, mut b: f32) {}") (* 442-444 *)
  ; ("struct", "struct MyStruct { foo: i32, bar: f32, }") (* 468-473 *)
  ; ("struct", "#[hello(world)] struct Foo;") (* 489-493 *)
  ; ("struct", "struct MyUnitStruct<A, B, C>(A, B, C);") (* 536-538 *)
  ; ("struct", "struct MyUnitStruct<'a, B, const C: usize, >(&'a [B; C]);") (* 550-554 *)
  ; ("fn", "fn f<'a>(tuple: (Cow<'a, path::to::Type>, impl Iterator<Item = path::to::Type>, MyArray<17>, )) {}") (* 589-598 *)
  ; ("struct", "struct MyStruct<T>(T) where T: Clone;") (* 647-649 *)
  ; ("struct", "struct MyUnitStruct<'a> { foo: i32, bar: &'a mut Vec<(u64, Option<bool>, f64)>, }") (* 660-665 *)
  ; ("const", "const CONSTANT: i32 = 5 * 302;") (* 675-678 *)
  ; ("use", "use std::collections::hash_map::{self, HashMap};") (* 710-712 *)
  ; ("enum", "enum MyEnum { A = 42, B = (some + arbitrary.expression()), }") (* 729-735 *)
  ; ("macro", "lazy_static! { #[doc = ""Some doc comment.""] static ref EXAMPLE: u8 = 42; }") (* 749-755 *)
  ; ("macro", "macro_rules! my_macro { ($($tt:tt)*) => { $($tt)* }; }") (* 758-762 *)
  ; ("extern block", "extern ""cdecl"" { #![allow(unused_variables)] some_macro!(); fn f(); static S: i32; }") (* 789-797 *)
  ; ("extern crate", "extern crate std;") (* 827-831 *)
  ; ("extern crate", "extern crate std as ruststd;")
  ; ("extern crate", "extern crate self as _;") ].
Example type_docs_parse : forallb doc_ok type_docs = true.
Proof. vm_compute. reflexivity. Qed.
(** One documented example does not parse, see C21: src/types.rs:311. *)
Example static_mut_doc : exists p, parse_item (lex "pub(crate) static mut STATIC: i32 = 7;") = Panic p.
Proof. eexists. vm_compute. reflexivity. Qed.

(** src/lib.rs:33-53. *)
Definition variant_names (i : item) : list string :=
  match i with IEnum e => map (fun x => id_str (ev_name (fst x))) (pu_inner (en_variants e)) | _ => [] end.
Example lib_doc :
  match parse_item (lex "enum Shape { Square(Square), Circle(Circle), Triangle(Triangle), }") with
  | Ret (Ok i) => variant_names i = ["Square"; "Circle"; "Triangle"]
  | _ => False
  end.
Proof. vm_compute. reflexivity. Qed.
(** src/parse.rs:33-58: the struct, and which discriminants are errors. *)
Example parse_doc : match parse_item (lex "struct Hello { foo: Foo, bar: Bar, }") with Ret (Ok (IStruct _)) => True | _ => False end.
Proof. vm_compute. exact I. Qed.
Definition discriminant (v : string) : option bool :=
  match parse_item (lex ("enum MyEnum { A = " ++ v ++ ", }")%string) with Ret (Ok _) => Some true | Ret (Err _) => Some false | _ => None end.
Example parse_errors_doc :
  map discriminant ["42"; """hello"""; "CONSTANT"; "FOO + BAR"; "(FOO + BAR)"] = [Some true; Some true; Some true; Some false; Some true].
Proof. vm_compute. reflexivity. Qed.
(** src/types_edition.rs:112-119, 274-297, 349-357. *)
Definition with_item {A} (text : string) (f : item -> A) : option A :=
  match parse_item (lex text) with Ret (Ok i) => Some (f i) | _ => None end.
Example name_doc : with_item "struct Hello(A, B);" (fun i => option_map id_str (item_name i)) = Some (Some "Hello").
Proof. vm_compute. reflexivity. Qed.
Example field_names_doc :
  with_item "struct Hello { a: Foo, b: Bar, }" (fun i => option_map field_names (as_struct i)) = Some (Some ["a"; "b"])
  /\ with_item "struct Hello(Foo, Bar);" (fun i => option_map field_names (as_struct i)) = Some (Some ["0"; "1"]).
Proof. vm_compute. auto. Qed.
Example c_enum_doc : with_item "enum MyEnum { A, B, C, D }" (fun i => option_map is_c_enum (as_enum i)) = Some (Some true).
Proof. vm_compute. reflexivity. Qed.
(** src/types_edition.rs:446-461.  The documentation lists the added predicates first; they come last. *)
Example derive_where_doc :
  with_item "struct MyStruct<T, U> where T: Clone { t: T, u: U }"
    (fun i => option_map (fun s => show_tokens (print_where (struct_derive_where s (lex "SomeTrait")))) (as_struct i))
  = Some (Some (show_tokens (lex "where T: Clone, T: SomeTrait, U: SomeTrait"))).
Proof. vm_compute. reflexivity. Qed.
(** src/types_edition.rs:577-654.  The quote of [bounded_lifetime] is not joint with the name. *)
Example constructors_doc :
  map (fun p => show_tokens (print_generic_param p))
    [gp_lifetime "a"; gp_bounded_lifetime "a" (lex "b + c"); gp_ty "T"; gp_bounded_ty "T" (lex "Debug + Eq"); gp_const_param "N" (lex "i32")]
  = ["'a"; "' a : b + c"; "T"; "T : Debug + Eq"; "const N : i32"].
Proof. vm_compute. reflexivity. Qed.
