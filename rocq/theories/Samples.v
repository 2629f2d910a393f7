(** Concrete streams used by the examples beside the theorems. *)
From Verif Require Export Lex Print ParseItem Grammar.
Local Open Scope string_scope.

(** The items obtained by calling [consume_item] until the stream is empty. *)
Fixpoint items_of (fuel : nat) (ts : list tok) : list item :=
  match fuel, ts with
  | S fuel, _ :: _ =>
      match consume_item ts with
      | Ret (Ok i, rest) => i :: items_of fuel rest
      | _ => []
      end
  | _, _ => []
  end.
(** The first item of a text; the default is never used in the examples. *)
Definition dummy_item : item :=
  IUse (mkUse [] None (mkIdent "" call_site) (mkTypeExpr []) (mkPunct " " Alone call_site)).
Definition item_of (s : string) : item := hd dummy_item (items_of 1 (lex s)).

(** The panic of an outcome, if any. *)
Definition panic_of {A} (o : outcome A) : option panic := match o with Panic p => Some p | _ => None end.

(** One item of every kind, in a module. *)
Definition rich_text : string := "
#[cfg(all)] pub(crate) mod m {
  #![allow(dead_code)]
  #[derive(Clone, Debug)] pub struct Named<'a, T: 'a + Fn(u8), const N: usize> where T: Clone, { #[doc = 5] pub x: Vec<Map<T, u8>>, y: &'a [T; N] }
  struct Tuple<T>(pub Vec<T, A>, u8,) where T: Copy;
  struct Unit;
  enum E<T> { A = 1, #[x] B(T, u8), C { x: T }, D = (2 + 3), }
  pub union U { a: u32, b: f32 }
  unsafe mod inner { use std::collections::{HashMap, BTreeMap as M}; mod leaf; }
  pub unsafe trait Tr<X>: Base<X> where X: Sized { #![inner] fn f(&self, mut a: u8) -> Result<X, Error>; const K: u8; type Out: Clone; m! { x } }
  impl<'a, T> Tr<u8> for Named<'a, T, 3> where T: Clone { fn g(&'a mut self) {} const K: u8 = 1; type Out = Vec<T>; }
  impl Unit { pub const fn new() -> Self { Unit } }
  type Alias = Result<A, B>;
  default const async unsafe extern ""C"" fn f<T>(a: T, b: fn(T) -> T,) -> impl Fn(T) -> T where T: Copy { a }
  const C: [u8; 2] = [1, 2]; static S: u8 = 3;
  macro_rules! mac { () => {} }
  call!(a, b);
  unsafe extern ""C"" { static X: u8; fn ext(x: u8); }
  extern crate alloc as other;
}".
Definition rich_module : item := item_of rich_text.

Example rich_module_parses : parse_item (lex rich_text) = Ret (Ok rich_module).
Proof. vm_compute. reflexivity. Qed.
Example rich_module_members :
  match rich_module with IModule m => List.length (mo_members m) | _ => 0 end = 17.
Proof. vm_compute. reflexivity. Qed.
