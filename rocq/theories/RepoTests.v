(** The tests of the repository, src/tests.rs, run on the model.

    The expected texts are the bodies of the snapshot files src/snapshots/*.snap, which
    were written by the Rust code.  Every test and every snapshot is here, except
    [parse_unsafe_extern_block.snap], which no test refers to.  The input of each
    [quote!] is put on one line and lexed by Lex.v. *)
From Verif Require Import Lex Debug.
Local Open Scope string_scope.
Local Open Scope list_scope.

(** [parse_declaration_checked], src/tests.rs:19-26: the item prints back to the same
    tokens (here with their spans), and its [{:#?}] is the snapshot. *)
Definition test_checked (input expected : string) : Prop :=
  match parse_item (lex input) with
  | Ret (Ok i) => print_item i = lex input /\ pretty (debug_item i) = Ret expected
  | _ => False
  end.
(** [parse_item(..).unwrap()] against the snapshot. *)
Definition test_item (input expected : string) : Prop :=
  match parse_item (lex input) with
  | Ret (Ok i) => pretty (debug_item i) = Ret expected
  | _ => False
  end.
(** [parse_item(..)], a [Result], against the snapshot. *)
Definition test_result (input expected : string) : Prop :=
  match parse_item (lex input) with
  | Ret r => pretty (debug_result debug_item r) = Ret expected
  | _ => False
  end.
(** [#[should_panic]]. *)
Definition test_panics (input : string) : Prop :=
  match parse_item (lex input) with Panic _ => True | _ => False end.
(** [parse_struct_declaration], src/tests.rs:961-966. *)
Definition parse_struct_declaration (input : string) : outcome struct_ :=
  match parse_item (lex input) with
  | Ret (Ok (IStruct s)) => Ret s
  | Ret _ => Panic PUnreachable
  | Panic p => Panic p
  | OutOfFuel => OutOfFuel
  end.
Definition show_struct (o : outcome struct_) : outcome string := do s <- o ;; Ret (show_tokens (print_struct s)).
Ltac snapshot := vm_compute; repeat split.

(** [reject_trailing_tokens] also fixes the panic. *)
Example reject_trailing_tokens_panic : parse_item (lex "struct Good {} trailing junk") = Panic PTrailingTokens.
Proof. snapshot. Qed.

(** [parse_unit_struct], src/tests.rs:46-53. *)
Example parse_unit_struct : test_checked
"struct Hello;"
"Struct(
    Struct {
        attributes: [],
        vis_marker: None,
        tk_struct: Ident(
            struct,
        ),
        name: Ident(
            Hello,
        ),
        generic_params: None,
        where_clause: None,
        fields: Unit,
        tk_semicolon: Some(
            Punct {
                char: ';',
                spacing: Alone,
            },
        ),
    },
)".
Proof. snapshot. Qed.

(** [parse_tuple_struct], src/tests.rs:55-62. *)
Example parse_tuple_struct : test_checked
"struct Hello(A, B);"
"Struct(
    Struct {
        attributes: [],
        vis_marker: None,
        tk_struct: Ident(
            struct,
        ),
        name: Ident(
            Hello,
        ),
        generic_params: None,
        where_clause: None,
        fields: Tuple(
            [
                TupleField {
                    attributes: [],
                    vis_marker: None,
                    ty: [
                        A,
                    ],
                },
                TupleField {
                    attributes: [],
                    vis_marker: None,
                    ty: [
                        B,
                    ],
                },
            ],
        ),
        tk_semicolon: Some(
            Punct {
                char: ';',
                spacing: Alone,
            },
        ),
    },
)".
Proof. snapshot. Qed.

(** [parse_normal_struct], src/tests.rs:64-74. *)
Example parse_normal_struct : test_checked
"struct Hello { a: A, b: B, }"
"Struct(
    Struct {
        attributes: [],
        vis_marker: None,
        tk_struct: Ident(
            struct,
        ),
        name: Ident(
            Hello,
        ),
        generic_params: None,
        where_clause: None,
        fields: Named(
            [
                NamedField {
                    attributes: [],
                    vis_marker: None,
                    name: Ident(
                        a,
                    ),
                    tk_colon: Punct {
                        char: ':',
                        spacing: Alone,
                    },
                    ty: [
                        A,
                    ],
                },
                NamedField {
                    attributes: [],
                    vis_marker: None,
                    name: Ident(
                        b,
                    ),
                    tk_colon: Punct {
                        char: ':',
                        spacing: Alone,
                    },
                    ty: [
                        B,
                    ],
                },
            ],
        ),
        tk_semicolon: None,
    },
)".
Proof. snapshot. Qed.

(** [parse_enum], src/tests.rs:76-87. *)
Example parse_enum : test_checked
"enum Hello { A, B(Foo, Bar), C { foo: Foo, bar: Bar }, }"
"Enum(
    Enum {
        attributes: [],
        vis_marker: None,
        tk_enum: Ident(
            enum,
        ),
        name: Ident(
            Hello,
        ),
        generic_params: None,
        where_clauses: None,
        variants: [
            EnumVariant {
                attributes: [],
                vis_marker: None,
                name: Ident(
                    A,
                ),
                fields: Unit,
                value: None,
            },
            EnumVariant {
                attributes: [],
                vis_marker: None,
                name: Ident(
                    B,
                ),
                fields: Tuple(
                    [
                        TupleField {
                            attributes: [],
                            vis_marker: None,
                            ty: [
                                Foo,
                            ],
                        },
                        TupleField {
                            attributes: [],
                            vis_marker: None,
                            ty: [
                                Bar,
                            ],
                        },
                    ],
                ),
                value: None,
            },
            EnumVariant {
                attributes: [],
                vis_marker: None,
                name: Ident(
                    C,
                ),
                fields: Named(
                    [
                        NamedField {
                            attributes: [],
                            vis_marker: None,
                            name: Ident(
                                foo,
                            ),
                            tk_colon: Punct {
                                char: ':',
                                spacing: Alone,
                            },
                            ty: [
                                Foo,
                            ],
                        },
                        NamedField {
                            attributes: [],
                            vis_marker: None,
                            name: Ident(
                                bar,
                            ),
                            tk_colon: Punct {
                                char: ':',
                                spacing: Alone,
                            },
                            ty: [
                                Bar,
                            ],
                        },
                    ],
                ),
                value: None,
            },
        ],
    },
)".
Proof. snapshot. Qed.

(** [parse_union], src/tests.rs:89-99. *)
Example parse_union : test_checked
"union Hello { a: A, b: B, }"
"Union(
    Union {
        attributes: [],
        vis_marker: None,
        tk_union: Ident(
            union,
        ),
        name: Ident(
            Hello,
        ),
        generic_params: None,
        where_clauses: None,
        fields: [
            NamedField {
                attributes: [],
                vis_marker: None,
                name: Ident(
                    a,
                ),
                tk_colon: Punct {
                    char: ':',
                    spacing: Alone,
                },
                ty: [
                    A,
                ],
            },
            NamedField {
                attributes: [],
                vis_marker: None,
                name: Ident(
                    b,
                ),
                tk_colon: Punct {
                    char: ':',
                    spacing: Alone,
                },
                ty: [
                    B,
                ],
            },
        ],
    },
)".
Proof. snapshot. Qed.

(** [parse_empty_tuple], src/tests.rs:101-108. *)
Example parse_empty_tuple : test_checked
"struct Hello();"
"Struct(
    Struct {
        attributes: [],
        vis_marker: None,
        tk_struct: Ident(
            struct,
        ),
        name: Ident(
            Hello,
        ),
        generic_params: None,
        where_clause: None,
        fields: Tuple(
            [],
        ),
        tk_semicolon: Some(
            Punct {
                char: ';',
                spacing: Alone,
            },
        ),
    },
)".
Proof. snapshot. Qed.

(** [parse_empty_struct], src/tests.rs:110-117. *)
Example parse_empty_struct : test_checked
"struct Hello {}"
"Struct(
    Struct {
        attributes: [],
        vis_marker: None,
        tk_struct: Ident(
            struct,
        ),
        name: Ident(
            Hello,
        ),
        generic_params: None,
        where_clause: None,
        fields: Named(
            [],
        ),
        tk_semicolon: None,
    },
)".
Proof. snapshot. Qed.

(** [parse_empty_enum], src/tests.rs:119-126. *)
Example parse_empty_enum : test_checked
"enum Hello {}"
"Enum(
    Enum {
        attributes: [],
        vis_marker: None,
        tk_enum: Ident(
            enum,
        ),
        name: Ident(
            Hello,
        ),
        generic_params: None,
        where_clauses: None,
        variants: [],
    },
)".
Proof. snapshot. Qed.

(** [reject_trailing_tokens], src/tests.rs:128-137. *)
Example reject_trailing_tokens :
  test_panics "struct Good {} trailing junk".
Proof. snapshot. Qed.

(** [parse_unit_struct_vis], src/tests.rs:143-158. *)
Example parse_unit_struct_vis : test_checked
"pub struct Hello;"
"Struct(
    Struct {
        attributes: [],
        vis_marker: Some(
            pub,
        ),
        tk_struct: Ident(
            struct,
        ),
        name: Ident(
            Hello,
        ),
        generic_params: None,
        where_clause: None,
        fields: Unit,
        tk_semicolon: Some(
            Punct {
                char: ';',
                spacing: Alone,
            },
        ),
    },
)".
Proof. snapshot. Qed.

Example parse_unit_struct_vis_2 : test_checked
"pub(crate) struct Hello;"
"Struct(
    Struct {
        attributes: [],
        vis_marker: Some(
            pub(
                crate,
            ),
        ),
        tk_struct: Ident(
            struct,
        ),
        name: Ident(
            Hello,
        ),
        generic_params: None,
        where_clause: None,
        fields: Unit,
        tk_semicolon: Some(
            Punct {
                char: ';',
                spacing: Alone,
            },
        ),
    },
)".
Proof. snapshot. Qed.

Example parse_unit_struct_vis_3 : test_checked
"crate struct Hello;"
"Struct(
    Struct {
        attributes: [],
        vis_marker: Some(
            crate,
        ),
        tk_struct: Ident(
            struct,
        ),
        name: Ident(
            Hello,
        ),
        generic_params: None,
        where_clause: None,
        fields: Unit,
        tk_semicolon: Some(
            Punct {
                char: ';',
                spacing: Alone,
            },
        ),
    },
)".
Proof. snapshot. Qed.

(** [parse_tuple_struct_vis], src/tests.rs:160-175. *)
Example parse_tuple_struct_vis : test_checked
"pub struct Hello(A, B);"
"Struct(
    Struct {
        attributes: [],
        vis_marker: Some(
            pub,
        ),
        tk_struct: Ident(
            struct,
        ),
        name: Ident(
            Hello,
        ),
        generic_params: None,
        where_clause: None,
        fields: Tuple(
            [
                TupleField {
                    attributes: [],
                    vis_marker: None,
                    ty: [
                        A,
                    ],
                },
                TupleField {
                    attributes: [],
                    vis_marker: None,
                    ty: [
                        B,
                    ],
                },
            ],
        ),
        tk_semicolon: Some(
            Punct {
                char: ';',
                spacing: Alone,
            },
        ),
    },
)".
Proof. snapshot. Qed.

Example parse_tuple_struct_vis_2 : test_checked
"pub(crate) struct Hello(A, B);"
"Struct(
    Struct {
        attributes: [],
        vis_marker: Some(
            pub(
                crate,
            ),
        ),
        tk_struct: Ident(
            struct,
        ),
        name: Ident(
            Hello,
        ),
        generic_params: None,
        where_clause: None,
        fields: Tuple(
            [
                TupleField {
                    attributes: [],
                    vis_marker: None,
                    ty: [
                        A,
                    ],
                },
                TupleField {
                    attributes: [],
                    vis_marker: None,
                    ty: [
                        B,
                    ],
                },
            ],
        ),
        tk_semicolon: Some(
            Punct {
                char: ';',
                spacing: Alone,
            },
        ),
    },
)".
Proof. snapshot. Qed.

Example parse_tuple_struct_vis_3 : test_checked
"crate struct Hello(A, B);"
"Struct(
    Struct {
        attributes: [],
        vis_marker: Some(
            crate,
        ),
        tk_struct: Ident(
            struct,
        ),
        name: Ident(
            Hello,
        ),
        generic_params: None,
        where_clause: None,
        fields: Tuple(
            [
                TupleField {
                    attributes: [],
                    vis_marker: None,
                    ty: [
                        A,
                    ],
                },
                TupleField {
                    attributes: [],
                    vis_marker: None,
                    ty: [
                        B,
                    ],
                },
            ],
        ),
        tk_semicolon: Some(
            Punct {
                char: ';',
                spacing: Alone,
            },
        ),
    },
)".
Proof. snapshot. Qed.

(** [parse_normal_struct_vis], src/tests.rs:177-201. *)
Example parse_normal_struct_vis : test_checked
"pub struct Hello { a: A, b: B, }"
"Struct(
    Struct {
        attributes: [],
        vis_marker: Some(
            pub,
        ),
        tk_struct: Ident(
            struct,
        ),
        name: Ident(
            Hello,
        ),
        generic_params: None,
        where_clause: None,
        fields: Named(
            [
                NamedField {
                    attributes: [],
                    vis_marker: None,
                    name: Ident(
                        a,
                    ),
                    tk_colon: Punct {
                        char: ':',
                        spacing: Alone,
                    },
                    ty: [
                        A,
                    ],
                },
                NamedField {
                    attributes: [],
                    vis_marker: None,
                    name: Ident(
                        b,
                    ),
                    tk_colon: Punct {
                        char: ':',
                        spacing: Alone,
                    },
                    ty: [
                        B,
                    ],
                },
            ],
        ),
        tk_semicolon: None,
    },
)".
Proof. snapshot. Qed.

Example parse_normal_struct_vis_2 : test_checked
"pub(crate) struct Hello { a: A, b: B, }"
"Struct(
    Struct {
        attributes: [],
        vis_marker: Some(
            pub(
                crate,
            ),
        ),
        tk_struct: Ident(
            struct,
        ),
        name: Ident(
            Hello,
        ),
        generic_params: None,
        where_clause: None,
        fields: Named(
            [
                NamedField {
                    attributes: [],
                    vis_marker: None,
                    name: Ident(
                        a,
                    ),
                    tk_colon: Punct {
                        char: ':',
                        spacing: Alone,
                    },
                    ty: [
                        A,
                    ],
                },
                NamedField {
                    attributes: [],
                    vis_marker: None,
                    name: Ident(
                        b,
                    ),
                    tk_colon: Punct {
                        char: ':',
                        spacing: Alone,
                    },
                    ty: [
                        B,
                    ],
                },
            ],
        ),
        tk_semicolon: None,
    },
)".
Proof. snapshot. Qed.

Example parse_normal_struct_vis_3 : test_checked
"crate struct Hello { a: A, b: B, }"
"Struct(
    Struct {
        attributes: [],
        vis_marker: Some(
            crate,
        ),
        tk_struct: Ident(
            struct,
        ),
        name: Ident(
            Hello,
        ),
        generic_params: None,
        where_clause: None,
        fields: Named(
            [
                NamedField {
                    attributes: [],
                    vis_marker: None,
                    name: Ident(
                        a,
                    ),
                    tk_colon: Punct {
                        char: ':',
                        spacing: Alone,
                    },
                    ty: [
                        A,
                    ],
                },
                NamedField {
                    attributes: [],
                    vis_marker: None,
                    name: Ident(
                        b,
                    ),
                    tk_colon: Punct {
                        char: ':',
                        spacing: Alone,
                    },
                    ty: [
                        B,
                    ],
                },
            ],
        ),
        tk_semicolon: None,
    },
)".
Proof. snapshot. Qed.

(** [parse_enum_vis], src/tests.rs:203-230. *)
Example parse_enum_vis : test_checked
"pub enum Hello { A, B(Foo, Bar), C { foo: Foo, bar: Bar }, }"
"Enum(
    Enum {
        attributes: [],
        vis_marker: Some(
            pub,
        ),
        tk_enum: Ident(
            enum,
        ),
        name: Ident(
            Hello,
        ),
        generic_params: None,
        where_clauses: None,
        variants: [
            EnumVariant {
                attributes: [],
                vis_marker: None,
                name: Ident(
                    A,
                ),
                fields: Unit,
                value: None,
            },
            EnumVariant {
                attributes: [],
                vis_marker: None,
                name: Ident(
                    B,
                ),
                fields: Tuple(
                    [
                        TupleField {
                            attributes: [],
                            vis_marker: None,
                            ty: [
                                Foo,
                            ],
                        },
                        TupleField {
                            attributes: [],
                            vis_marker: None,
                            ty: [
                                Bar,
                            ],
                        },
                    ],
                ),
                value: None,
            },
            EnumVariant {
                attributes: [],
                vis_marker: None,
                name: Ident(
                    C,
                ),
                fields: Named(
                    [
                        NamedField {
                            attributes: [],
                            vis_marker: None,
                            name: Ident(
                                foo,
                            ),
                            tk_colon: Punct {
                                char: ':',
                                spacing: Alone,
                            },
                            ty: [
                                Foo,
                            ],
                        },
                        NamedField {
                            attributes: [],
                            vis_marker: None,
                            name: Ident(
                                bar,
                            ),
                            tk_colon: Punct {
                                char: ':',
                                spacing: Alone,
                            },
                            ty: [
                                Bar,
                            ],
                        },
                    ],
                ),
                value: None,
            },
        ],
    },
)".
Proof. snapshot. Qed.

Example parse_enum_vis_2 : test_checked
"pub(crate) enum Hello { A, B(Foo, Bar), C { foo: Foo, bar: Bar }, }"
"Enum(
    Enum {
        attributes: [],
        vis_marker: Some(
            pub(
                crate,
            ),
        ),
        tk_enum: Ident(
            enum,
        ),
        name: Ident(
            Hello,
        ),
        generic_params: None,
        where_clauses: None,
        variants: [
            EnumVariant {
                attributes: [],
                vis_marker: None,
                name: Ident(
                    A,
                ),
                fields: Unit,
                value: None,
            },
            EnumVariant {
                attributes: [],
                vis_marker: None,
                name: Ident(
                    B,
                ),
                fields: Tuple(
                    [
                        TupleField {
                            attributes: [],
                            vis_marker: None,
                            ty: [
                                Foo,
                            ],
                        },
                        TupleField {
                            attributes: [],
                            vis_marker: None,
                            ty: [
                                Bar,
                            ],
                        },
                    ],
                ),
                value: None,
            },
            EnumVariant {
                attributes: [],
                vis_marker: None,
                name: Ident(
                    C,
                ),
                fields: Named(
                    [
                        NamedField {
                            attributes: [],
                            vis_marker: None,
                            name: Ident(
                                foo,
                            ),
                            tk_colon: Punct {
                                char: ':',
                                spacing: Alone,
                            },
                            ty: [
                                Foo,
                            ],
                        },
                        NamedField {
                            attributes: [],
                            vis_marker: None,
                            name: Ident(
                                bar,
                            ),
                            tk_colon: Punct {
                                char: ':',
                                spacing: Alone,
                            },
                            ty: [
                                Bar,
                            ],
                        },
                    ],
                ),
                value: None,
            },
        ],
    },
)".
Proof. snapshot. Qed.

Example parse_enum_vis_3 : test_checked
"crate enum Hello { A, B(Foo, Bar), C { foo: Foo, bar: Bar }, }"
"Enum(
    Enum {
        attributes: [],
        vis_marker: Some(
            crate,
        ),
        tk_enum: Ident(
            enum,
        ),
        name: Ident(
            Hello,
        ),
        generic_params: None,
        where_clauses: None,
        variants: [
            EnumVariant {
                attributes: [],
                vis_marker: None,
                name: Ident(
                    A,
                ),
                fields: Unit,
                value: None,
            },
            EnumVariant {
                attributes: [],
                vis_marker: None,
                name: Ident(
                    B,
                ),
                fields: Tuple(
                    [
                        TupleField {
                            attributes: [],
                            vis_marker: None,
                            ty: [
                                Foo,
                            ],
                        },
                        TupleField {
                            attributes: [],
                            vis_marker: None,
                            ty: [
                                Bar,
                            ],
                        },
                    ],
                ),
                value: None,
            },
            EnumVariant {
                attributes: [],
                vis_marker: None,
                name: Ident(
                    C,
                ),
                fields: Named(
                    [
                        NamedField {
                            attributes: [],
                            vis_marker: None,
                            name: Ident(
                                foo,
                            ),
                            tk_colon: Punct {
                                char: ':',
                                spacing: Alone,
                            },
                            ty: [
                                Foo,
                            ],
                        },
                        NamedField {
                            attributes: [],
                            vis_marker: None,
                            name: Ident(
                                bar,
                            ),
                            tk_colon: Punct {
                                char: ':',
                                spacing: Alone,
                            },
                            ty: [
                                Bar,
                            ],
                        },
                    ],
                ),
                value: None,
            },
        ],
    },
)".
Proof. snapshot. Qed.

(** [parse_struct_fields_vis], src/tests.rs:232-244. *)
Example parse_struct_fields_vis : test_checked
"pub struct Hello { pub a: A, pub(super) b: B, crate c: C, d: D, }"
"Struct(
    Struct {
        attributes: [],
        vis_marker: Some(
            pub,
        ),
        tk_struct: Ident(
            struct,
        ),
        name: Ident(
            Hello,
        ),
        generic_params: None,
        where_clause: None,
        fields: Named(
            [
                NamedField {
                    attributes: [],
                    vis_marker: Some(
                        pub,
                    ),
                    name: Ident(
                        a,
                    ),
                    tk_colon: Punct {
                        char: ':',
                        spacing: Alone,
                    },
                    ty: [
                        A,
                    ],
                },
                NamedField {
                    attributes: [],
                    vis_marker: Some(
                        pub(
                            super,
                        ),
                    ),
                    name: Ident(
                        b,
                    ),
                    tk_colon: Punct {
                        char: ':',
                        spacing: Alone,
                    },
                    ty: [
                        B,
                    ],
                },
                NamedField {
                    attributes: [],
                    vis_marker: Some(
                        crate,
                    ),
                    name: Ident(
                        c,
                    ),
                    tk_colon: Punct {
                        char: ':',
                        spacing: Alone,
                    },
                    ty: [
                        C,
                    ],
                },
                NamedField {
                    attributes: [],
                    vis_marker: None,
                    name: Ident(
                        d,
                    ),
                    tk_colon: Punct {
                        char: ':',
                        spacing: Alone,
                    },
                    ty: [
                        D,
                    ],
                },
            ],
        ),
        tk_semicolon: None,
    },
)".
Proof. snapshot. Qed.

(** [parse_tuple_fields_vis], src/tests.rs:246-253. *)
Example parse_tuple_fields_vis : test_checked
"pub struct Hello(pub A, pub(super) B, crate C, D);"
"Struct(
    Struct {
        attributes: [],
        vis_marker: Some(
            pub,
        ),
        tk_struct: Ident(
            struct,
        ),
        name: Ident(
            Hello,
        ),
        generic_params: None,
        where_clause: None,
        fields: Tuple(
            [
                TupleField {
                    attributes: [],
                    vis_marker: Some(
                        pub,
                    ),
                    ty: [
                        A,
                    ],
                },
                TupleField {
                    attributes: [],
                    vis_marker: Some(
                        pub(
                            super,
                        ),
                    ),
                    ty: [
                        B,
                    ],
                },
                TupleField {
                    attributes: [],
                    vis_marker: Some(
                        crate,
                    ),
                    ty: [
                        C,
                    ],
                },
                TupleField {
                    attributes: [],
                    vis_marker: None,
                    ty: [
                        D,
                    ],
                },
            ],
        ),
        tk_semicolon: Some(
            Punct {
                char: ';',
                spacing: Alone,
            },
        ),
    },
)".
Proof. snapshot. Qed.

(** [parse_unit_struct_attributes], src/tests.rs:259-267. *)
Example parse_unit_struct_attributes : test_checked
"#[hello] pub struct Hello;"
"Struct(
    Struct {
        attributes: [
            Attribute {
                tk_hash: Punct {
                    char: '#',
                    spacing: Alone,
                },
                tk_brackets: [],
                path: [
                    hello,
                ],
                value: Empty,
            },
        ],
        vis_marker: Some(
            pub,
        ),
        tk_struct: Ident(
            struct,
        ),
        name: Ident(
            Hello,
        ),
        generic_params: None,
        where_clause: None,
        fields: Unit,
        tk_semicolon: Some(
            Punct {
                char: ';',
                spacing: Alone,
            },
        ),
    },
)".
Proof. snapshot. Qed.

(** [parse_tuple_struct_attributes], src/tests.rs:269-277. *)
Example parse_tuple_struct_attributes : test_checked
"#[hello] pub struct Hello(A, B);"
"Struct(
    Struct {
        attributes: [
            Attribute {
                tk_hash: Punct {
                    char: '#',
                    spacing: Alone,
                },
                tk_brackets: [],
                path: [
                    hello,
                ],
                value: Empty,
            },
        ],
        vis_marker: Some(
            pub,
        ),
        tk_struct: Ident(
            struct,
        ),
        name: Ident(
            Hello,
        ),
        generic_params: None,
        where_clause: None,
        fields: Tuple(
            [
                TupleField {
                    attributes: [],
                    vis_marker: None,
                    ty: [
                        A,
                    ],
                },
                TupleField {
                    attributes: [],
                    vis_marker: None,
                    ty: [
                        B,
                    ],
                },
            ],
        ),
        tk_semicolon: Some(
            Punct {
                char: ';',
                spacing: Alone,
            },
        ),
    },
)".
Proof. snapshot. Qed.

(** [parse_normal_struct_attributes], src/tests.rs:279-290. *)
Example parse_normal_struct_attributes : test_checked
"#[hello] pub struct Hello { a: A, b: B, }"
"Struct(
    Struct {
        attributes: [
            Attribute {
                tk_hash: Punct {
                    char: '#',
                    spacing: Alone,
                },
                tk_brackets: [],
                path: [
                    hello,
                ],
                value: Empty,
            },
        ],
        vis_marker: Some(
            pub,
        ),
        tk_struct: Ident(
            struct,
        ),
        name: Ident(
            Hello,
        ),
        generic_params: None,
        where_clause: None,
        fields: Named(
            [
                NamedField {
                    attributes: [],
                    vis_marker: None,
                    name: Ident(
                        a,
                    ),
                    tk_colon: Punct {
                        char: ':',
                        spacing: Alone,
                    },
                    ty: [
                        A,
                    ],
                },
                NamedField {
                    attributes: [],
                    vis_marker: None,
                    name: Ident(
                        b,
                    ),
                    tk_colon: Punct {
                        char: ':',
                        spacing: Alone,
                    },
                    ty: [
                        B,
                    ],
                },
            ],
        ),
        tk_semicolon: None,
    },
)".
Proof. snapshot. Qed.

(** [parse_enum_attributes], src/tests.rs:292-304. *)
Example parse_enum_attributes : test_checked
"#[hello] pub enum Hello { A, B(Foo, Bar), C { foo: Foo, bar: Bar }, }"
"Enum(
    Enum {
        attributes: [
            Attribute {
                tk_hash: Punct {
                    char: '#',
                    spacing: Alone,
                },
                tk_brackets: [],
                path: [
                    hello,
                ],
                value: Empty,
            },
        ],
        vis_marker: Some(
            pub,
        ),
        tk_enum: Ident(
            enum,
        ),
        name: Ident(
            Hello,
        ),
        generic_params: None,
        where_clauses: None,
        variants: [
            EnumVariant {
                attributes: [],
                vis_marker: None,
                name: Ident(
                    A,
                ),
                fields: Unit,
                value: None,
            },
            EnumVariant {
                attributes: [],
                vis_marker: None,
                name: Ident(
                    B,
                ),
                fields: Tuple(
                    [
                        TupleField {
                            attributes: [],
                            vis_marker: None,
                            ty: [
                                Foo,
                            ],
                        },
                        TupleField {
                            attributes: [],
                            vis_marker: None,
                            ty: [
                                Bar,
                            ],
                        },
                    ],
                ),
                value: None,
            },
            EnumVariant {
                attributes: [],
                vis_marker: None,
                name: Ident(
                    C,
                ),
                fields: Named(
                    [
                        NamedField {
                            attributes: [],
                            vis_marker: None,
                            name: Ident(
                                foo,
                            ),
                            tk_colon: Punct {
                                char: ':',
                                spacing: Alone,
                            },
                            ty: [
                                Foo,
                            ],
                        },
                        NamedField {
                            attributes: [],
                            vis_marker: None,
                            name: Ident(
                                bar,
                            ),
                            tk_colon: Punct {
                                char: ':',
                                spacing: Alone,
                            },
                            ty: [
                                Bar,
                            ],
                        },
                    ],
                ),
                value: None,
            },
        ],
    },
)".
Proof. snapshot. Qed.

(** [parse_struct_fields_attributes], src/tests.rs:306-322. *)
Example parse_struct_fields_attributes : test_checked
"pub struct Hello { #[hello] a: A, b: B, #[hello] #[hello] #[hello] c: C, d: D, }"
"Struct(
    Struct {
        attributes: [],
        vis_marker: Some(
            pub,
        ),
        tk_struct: Ident(
            struct,
        ),
        name: Ident(
            Hello,
        ),
        generic_params: None,
        where_clause: None,
        fields: Named(
            [
                NamedField {
                    attributes: [
                        Attribute {
                            tk_hash: Punct {
                                char: '#',
                                spacing: Alone,
                            },
                            tk_brackets: [],
                            path: [
                                hello,
                            ],
                            value: Empty,
                        },
                    ],
                    vis_marker: None,
                    name: Ident(
                        a,
                    ),
                    tk_colon: Punct {
                        char: ':',
                        spacing: Alone,
                    },
                    ty: [
                        A,
                    ],
                },
                NamedField {
                    attributes: [],
                    vis_marker: None,
                    name: Ident(
                        b,
                    ),
                    tk_colon: Punct {
                        char: ':',
                        spacing: Alone,
                    },
                    ty: [
                        B,
                    ],
                },
                NamedField {
                    attributes: [
                        Attribute {
                            tk_hash: Punct {
                                char: '#',
                                spacing: Alone,
                            },
                            tk_brackets: [],
                            path: [
                                hello,
                            ],
                            value: Empty,
                        },
                        Attribute {
                            tk_hash: Punct {
                                char: '#',
                                spacing: Alone,
                            },
                            tk_brackets: [],
                            path: [
                                hello,
                            ],
                            value: Empty,
                        },
                        Attribute {
                            tk_hash: Punct {
                                char: '#',
                                spacing: Alone,
                            },
                            tk_brackets: [],
                            path: [
                                hello,
                            ],
                            value: Empty,
                        },
                    ],
                    vis_marker: None,
                    name: Ident(
                        c,
                    ),
                    tk_colon: Punct {
                        char: ':',
                        spacing: Alone,
                    },
                    ty: [
                        C,
                    ],
                },
                NamedField {
                    attributes: [],
                    vis_marker: None,
                    name: Ident(
                        d,
                    ),
                    tk_colon: Punct {
                        char: ':',
                        spacing: Alone,
                    },
                    ty: [
                        D,
                    ],
                },
            ],
        ),
        tk_semicolon: None,
    },
)".
Proof. snapshot. Qed.

(** [parse_tuple_fields_attributes], src/tests.rs:324-339. *)
Example parse_tuple_fields_attributes : test_checked
"pub struct Hello( #[hello] A, B, #[hello] #[hello] #[hello] C, D, );"
"Struct(
    Struct {
        attributes: [],
        vis_marker: Some(
            pub,
        ),
        tk_struct: Ident(
            struct,
        ),
        name: Ident(
            Hello,
        ),
        generic_params: None,
        where_clause: None,
        fields: Tuple(
            [
                TupleField {
                    attributes: [
                        Attribute {
                            tk_hash: Punct {
                                char: '#',
                                spacing: Alone,
                            },
                            tk_brackets: [],
                            path: [
                                hello,
                            ],
                            value: Empty,
                        },
                    ],
                    vis_marker: None,
                    ty: [
                        A,
                    ],
                },
                TupleField {
                    attributes: [],
                    vis_marker: None,
                    ty: [
                        B,
                    ],
                },
                TupleField {
                    attributes: [
                        Attribute {
                            tk_hash: Punct {
                                char: '#',
                                spacing: Alone,
                            },
                            tk_brackets: [],
                            path: [
                                hello,
                            ],
                            value: Empty,
                        },
                        Attribute {
                            tk_hash: Punct {
                                char: '#',
                                spacing: Alone,
                            },
                            tk_brackets: [],
                            path: [
                                hello,
                            ],
                            value: Empty,
                        },
                        Attribute {
                            tk_hash: Punct {
                                char: '#',
                                spacing: Alone,
                            },
                            tk_brackets: [],
                            path: [
                                hello,
                            ],
                            value: Empty,
                        },
                    ],
                    vis_marker: None,
                    ty: [
                        C,
                    ],
                },
                TupleField {
                    attributes: [],
                    vis_marker: None,
                    ty: [
                        D,
                    ],
                },
            ],
        ),
        tk_semicolon: Some(
            Punct {
                char: ';',
                spacing: Alone,
            },
        ),
    },
)".
Proof. snapshot. Qed.

(** [parse_unit_struct_where_clause], src/tests.rs:362-372. *)
Example parse_unit_struct_where_clause : test_checked
"struct Hello where A: B, C<D>: E<F>;"
"Struct(
    Struct {
        attributes: [],
        vis_marker: None,
        tk_struct: Ident(
            struct,
        ),
        name: Ident(
            Hello,
        ),
        generic_params: None,
        where_clause: Some(
            [
                [
                    A,
                    "":"",
                    B,
                ],
                [
                    C,
                    ""<"",
                    D,
                    "">"",
                    "":"",
                    E,
                    ""<"",
                    F,
                    "">"",
                ],
            ],
        ),
        fields: Unit,
        tk_semicolon: Some(
            Punct {
                char: ';',
                spacing: Alone,
            },
        ),
    },
)".
Proof. snapshot. Qed.

(** [parse_tuple_struct_where_clause], src/tests.rs:374-384. *)
Example parse_tuple_struct_where_clause : test_checked
"struct Hello(A, B) where A: B, C<D>: E<F>;"
"Struct(
    Struct {
        attributes: [],
        vis_marker: None,
        tk_struct: Ident(
            struct,
        ),
        name: Ident(
            Hello,
        ),
        generic_params: None,
        where_clause: Some(
            [
                [
                    A,
                    "":"",
                    B,
                ],
                [
                    C,
                    ""<"",
                    D,
                    "">"",
                    "":"",
                    E,
                    ""<"",
                    F,
                    "">"",
                ],
            ],
        ),
        fields: Tuple(
            [
                TupleField {
                    attributes: [],
                    vis_marker: None,
                    ty: [
                        A,
                    ],
                },
                TupleField {
                    attributes: [],
                    vis_marker: None,
                    ty: [
                        B,
                    ],
                },
            ],
        ),
        tk_semicolon: Some(
            Punct {
                char: ';',
                spacing: Alone,
            },
        ),
    },
)".
Proof. snapshot. Qed.

(** [parse_normal_struct_where_clause], src/tests.rs:386-400. *)
Example parse_normal_struct_where_clause : test_checked
"struct Hello where A: B, C<D>: E<F>, { a: A, b: B, }"
"Struct(
    Struct {
        attributes: [],
        vis_marker: None,
        tk_struct: Ident(
            struct,
        ),
        name: Ident(
            Hello,
        ),
        generic_params: None,
        where_clause: Some(
            [
                [
                    A,
                    "":"",
                    B,
                ],
                [
                    C,
                    ""<"",
                    D,
                    "">"",
                    "":"",
                    E,
                    ""<"",
                    F,
                    "">"",
                ],
            ],
        ),
        fields: Named(
            [
                NamedField {
                    attributes: [],
                    vis_marker: None,
                    name: Ident(
                        a,
                    ),
                    tk_colon: Punct {
                        char: ':',
                        spacing: Alone,
                    },
                    ty: [
                        A,
                    ],
                },
                NamedField {
                    attributes: [],
                    vis_marker: None,
                    name: Ident(
                        b,
                    ),
                    tk_colon: Punct {
                        char: ':',
                        spacing: Alone,
                    },
                    ty: [
                        B,
                    ],
                },
            ],
        ),
        tk_semicolon: None,
    },
)".
Proof. snapshot. Qed.

(** [parse_enum_where_clause], src/tests.rs:402-417. *)
Example parse_enum_where_clause : test_checked
"enum Hello where A: B, C<D>: E<F>, { A, B(Foo, Bar), C { foo: Foo, bar: Bar }, }"
"Enum(
    Enum {
        attributes: [],
        vis_marker: None,
        tk_enum: Ident(
            enum,
        ),
        name: Ident(
            Hello,
        ),
        generic_params: None,
        where_clauses: Some(
            [
                [
                    A,
                    "":"",
                    B,
                ],
                [
                    C,
                    ""<"",
                    D,
                    "">"",
                    "":"",
                    E,
                    ""<"",
                    F,
                    "">"",
                ],
            ],
        ),
        variants: [
            EnumVariant {
                attributes: [],
                vis_marker: None,
                name: Ident(
                    A,
                ),
                fields: Unit,
                value: None,
            },
            EnumVariant {
                attributes: [],
                vis_marker: None,
                name: Ident(
                    B,
                ),
                fields: Tuple(
                    [
                        TupleField {
                            attributes: [],
                            vis_marker: None,
                            ty: [
                                Foo,
                            ],
                        },
                        TupleField {
                            attributes: [],
                            vis_marker: None,
                            ty: [
                                Bar,
                            ],
                        },
                    ],
                ),
                value: None,
            },
            EnumVariant {
                attributes: [],
                vis_marker: None,
                name: Ident(
                    C,
                ),
                fields: Named(
                    [
                        NamedField {
                            attributes: [],
                            vis_marker: None,
                            name: Ident(
                                foo,
                            ),
                            tk_colon: Punct {
                                char: ':',
                                spacing: Alone,
                            },
                            ty: [
                                Foo,
                            ],
                        },
                        NamedField {
                            attributes: [],
                            vis_marker: None,
                            name: Ident(
                                bar,
                            ),
                            tk_colon: Punct {
                                char: ':',
                                spacing: Alone,
                            },
                            ty: [
                                Bar,
                            ],
                        },
                    ],
                ),
                value: None,
            },
        ],
    },
)".
Proof. snapshot. Qed.

(** [parse_unit_struct_empty_where_clause], src/tests.rs:419-427. *)
Example parse_unit_struct_empty_where_clause : test_checked
"struct Hello where;"
"Struct(
    Struct {
        attributes: [],
        vis_marker: None,
        tk_struct: Ident(
            struct,
        ),
        name: Ident(
            Hello,
        ),
        generic_params: None,
        where_clause: Some(
            [],
        ),
        fields: Unit,
        tk_semicolon: Some(
            Punct {
                char: ';',
                spacing: Alone,
            },
        ),
    },
)".
Proof. snapshot. Qed.

(** [parse_tuple_struct_empty_where_clause], src/tests.rs:429-437. *)
Example parse_tuple_struct_empty_where_clause : test_checked
"struct Hello(A, B) where;"
"Struct(
    Struct {
        attributes: [],
        vis_marker: None,
        tk_struct: Ident(
            struct,
        ),
        name: Ident(
            Hello,
        ),
        generic_params: None,
        where_clause: Some(
            [],
        ),
        fields: Tuple(
            [
                TupleField {
                    attributes: [],
                    vis_marker: None,
                    ty: [
                        A,
                    ],
                },
                TupleField {
                    attributes: [],
                    vis_marker: None,
                    ty: [
                        B,
                    ],
                },
            ],
        ),
        tk_semicolon: Some(
            Punct {
                char: ';',
                spacing: Alone,
            },
        ),
    },
)".
Proof. snapshot. Qed.

(** [parse_normal_struct_empty_where_clause], src/tests.rs:439-452. *)
Example parse_normal_struct_empty_where_clause : test_checked
"struct Hello where { a: A, b: B, }"
"Struct(
    Struct {
        attributes: [],
        vis_marker: None,
        tk_struct: Ident(
            struct,
        ),
        name: Ident(
            Hello,
        ),
        generic_params: None,
        where_clause: Some(
            [],
        ),
        fields: Named(
            [
                NamedField {
                    attributes: [],
                    vis_marker: None,
                    name: Ident(
                        a,
                    ),
                    tk_colon: Punct {
                        char: ':',
                        spacing: Alone,
                    },
                    ty: [
                        A,
                    ],
                },
                NamedField {
                    attributes: [],
                    vis_marker: None,
                    name: Ident(
                        b,
                    ),
                    tk_colon: Punct {
                        char: ':',
                        spacing: Alone,
                    },
                    ty: [
                        B,
                    ],
                },
            ],
        ),
        tk_semicolon: None,
    },
)".
Proof. snapshot. Qed.

(** [parse_enum_empty_where_clause], src/tests.rs:454-468. *)
Example parse_enum_empty_where_clause : test_checked
"enum Hello where { A, B(Foo, Bar), C { foo: Foo, bar: Bar }, }"
"Enum(
    Enum {
        attributes: [],
        vis_marker: None,
        tk_enum: Ident(
            enum,
        ),
        name: Ident(
            Hello,
        ),
        generic_params: None,
        where_clauses: Some(
            [],
        ),
        variants: [
            EnumVariant {
                attributes: [],
                vis_marker: None,
                name: Ident(
                    A,
                ),
                fields: Unit,
                value: None,
            },
            EnumVariant {
                attributes: [],
                vis_marker: None,
                name: Ident(
                    B,
                ),
                fields: Tuple(
                    [
                        TupleField {
                            attributes: [],
                            vis_marker: None,
                            ty: [
                                Foo,
                            ],
                        },
                        TupleField {
                            attributes: [],
                            vis_marker: None,
                            ty: [
                                Bar,
                            ],
                        },
                    ],
                ),
                value: None,
            },
            EnumVariant {
                attributes: [],
                vis_marker: None,
                name: Ident(
                    C,
                ),
                fields: Named(
                    [
                        NamedField {
                            attributes: [],
                            vis_marker: None,
                            name: Ident(
                                foo,
                            ),
                            tk_colon: Punct {
                                char: ':',
                                spacing: Alone,
                            },
                            ty: [
                                Foo,
                            ],
                        },
                        NamedField {
                            attributes: [],
                            vis_marker: None,
                            name: Ident(
                                bar,
                            ),
                            tk_colon: Punct {
                                char: ':',
                                spacing: Alone,
                            },
                            ty: [
                                Bar,
                            ],
                        },
                    ],
                ),
                value: None,
            },
        ],
    },
)".
Proof. snapshot. Qed.

(** [parse_unit_struct_generic_params], src/tests.rs:474-481. *)
Example parse_unit_struct_generic_params : test_checked
"struct Hello<X, Y: Z<A>, Z>;"
"Struct(
    Struct {
        attributes: [],
        vis_marker: None,
        tk_struct: Ident(
            struct,
        ),
        name: Ident(
            Hello,
        ),
        generic_params: Some(
            [
                GenericParam {
                    name: ""X"",
                    bound: None,
                },
                GenericParam {
                    name: ""Y"",
                    bound: Some(
                        [
                            Z,
                            ""<"",
                            A,
                            "">"",
                        ],
                    ),
                },
                GenericParam {
                    name: ""Z"",
                    bound: None,
                },
            ],
        ),
        where_clause: None,
        fields: Unit,
        tk_semicolon: Some(
            Punct {
                char: ';',
                spacing: Alone,
            },
        ),
    },
)".
Proof. snapshot. Qed.

(** [parse_tuple_struct_generic_params], src/tests.rs:483-490. *)
Example parse_tuple_struct_generic_params : test_checked
"struct Hello<X, Y: Z<A>, Z>(A, B);"
"Struct(
    Struct {
        attributes: [],
        vis_marker: None,
        tk_struct: Ident(
            struct,
        ),
        name: Ident(
            Hello,
        ),
        generic_params: Some(
            [
                GenericParam {
                    name: ""X"",
                    bound: None,
                },
                GenericParam {
                    name: ""Y"",
                    bound: Some(
                        [
                            Z,
                            ""<"",
                            A,
                            "">"",
                        ],
                    ),
                },
                GenericParam {
                    name: ""Z"",
                    bound: None,
                },
            ],
        ),
        where_clause: None,
        fields: Tuple(
            [
                TupleField {
                    attributes: [],
                    vis_marker: None,
                    ty: [
                        A,
                    ],
                },
                TupleField {
                    attributes: [],
                    vis_marker: None,
                    ty: [
                        B,
                    ],
                },
            ],
        ),
        tk_semicolon: Some(
            Punct {
                char: ';',
                spacing: Alone,
            },
        ),
    },
)".
Proof. snapshot. Qed.

(** [parse_normal_struct_generic_params], src/tests.rs:492-502. *)
Example parse_normal_struct_generic_params : test_checked
"struct Hello<X, Y: Z<A>, Z> { a: A, b: B<X, Y, Z>, }"
"Struct(
    Struct {
        attributes: [],
        vis_marker: None,
        tk_struct: Ident(
            struct,
        ),
        name: Ident(
            Hello,
        ),
        generic_params: Some(
            [
                GenericParam {
                    name: ""X"",
                    bound: None,
                },
                GenericParam {
                    name: ""Y"",
                    bound: Some(
                        [
                            Z,
                            ""<"",
                            A,
                            "">"",
                        ],
                    ),
                },
                GenericParam {
                    name: ""Z"",
                    bound: None,
                },
            ],
        ),
        where_clause: None,
        fields: Named(
            [
                NamedField {
                    attributes: [],
                    vis_marker: None,
                    name: Ident(
                        a,
                    ),
                    tk_colon: Punct {
                        char: ':',
                        spacing: Alone,
                    },
                    ty: [
                        A,
                    ],
                },
                NamedField {
                    attributes: [],
                    vis_marker: None,
                    name: Ident(
                        b,
                    ),
                    tk_colon: Punct {
                        char: ':',
                        spacing: Alone,
                    },
                    ty: [
                        B,
                        ""<"",
                        X,
                        "","",
                        Y,
                        "","",
                        Z,
                        "">"",
                    ],
                },
            ],
        ),
        tk_semicolon: None,
    },
)".
Proof. snapshot. Qed.

(** [parse_enum_generic_params], src/tests.rs:504-515. *)
Example parse_enum_generic_params : test_checked
"enum Hello<X, Y: Z<A>, Z> { A, B(Foo, Bar<X, Y, Z>), C { foo: Foo<X, Y, Z>, bar: Bar }, }"
"Enum(
    Enum {
        attributes: [],
        vis_marker: None,
        tk_enum: Ident(
            enum,
        ),
        name: Ident(
            Hello,
        ),
        generic_params: Some(
            [
                GenericParam {
                    name: ""X"",
                    bound: None,
                },
                GenericParam {
                    name: ""Y"",
                    bound: Some(
                        [
                            Z,
                            ""<"",
                            A,
                            "">"",
                        ],
                    ),
                },
                GenericParam {
                    name: ""Z"",
                    bound: None,
                },
            ],
        ),
        where_clauses: None,
        variants: [
            EnumVariant {
                attributes: [],
                vis_marker: None,
                name: Ident(
                    A,
                ),
                fields: Unit,
                value: None,
            },
            EnumVariant {
                attributes: [],
                vis_marker: None,
                name: Ident(
                    B,
                ),
                fields: Tuple(
                    [
                        TupleField {
                            attributes: [],
                            vis_marker: None,
                            ty: [
                                Foo,
                            ],
                        },
                        TupleField {
                            attributes: [],
                            vis_marker: None,
                            ty: [
                                Bar,
                                ""<"",
                                X,
                                "","",
                                Y,
                                "","",
                                Z,
                                "">"",
                            ],
                        },
                    ],
                ),
                value: None,
            },
            EnumVariant {
                attributes: [],
                vis_marker: None,
                name: Ident(
                    C,
                ),
                fields: Named(
                    [
                        NamedField {
                            attributes: [],
                            vis_marker: None,
                            name: Ident(
                                foo,
                            ),
                            tk_colon: Punct {
                                char: ':',
                                spacing: Alone,
                            },
                            ty: [
                                Foo,
                                ""<"",
                                X,
                                "","",
                                Y,
                                "","",
                                Z,
                                "">"",
                            ],
                        },
                        NamedField {
                            attributes: [],
                            vis_marker: None,
                            name: Ident(
                                bar,
                            ),
                            tk_colon: Punct {
                                char: ':',
                                spacing: Alone,
                            },
                            ty: [
                                Bar,
                            ],
                        },
                    ],
                ),
                value: None,
            },
        ],
    },
)".
Proof. snapshot. Qed.

(** [parse_enum_empty_generic_params], src/tests.rs:517-532. *)
Example parse_enum_empty_generic_params : test_checked
"enum Hello<> where A<>: B<>, { A, B(Foo, Bar<>), C { foo: Foo<>, bar: Bar }, }"
"Enum(
    Enum {
        attributes: [],
        vis_marker: None,
        tk_enum: Ident(
            enum,
        ),
        name: Ident(
            Hello,
        ),
        generic_params: Some(
            [],
        ),
        where_clauses: Some(
            [
                [
                    A,
                    ""<"",
                    "">"",
                    "":"",
                    B,
                    ""<"",
                    "">"",
                ],
            ],
        ),
        variants: [
            EnumVariant {
                attributes: [],
                vis_marker: None,
                name: Ident(
                    A,
                ),
                fields: Unit,
                value: None,
            },
            EnumVariant {
                attributes: [],
                vis_marker: None,
                name: Ident(
                    B,
                ),
                fields: Tuple(
                    [
                        TupleField {
                            attributes: [],
                            vis_marker: None,
                            ty: [
                                Foo,
                            ],
                        },
                        TupleField {
                            attributes: [],
                            vis_marker: None,
                            ty: [
                                Bar,
                                ""<"",
                                "">"",
                            ],
                        },
                    ],
                ),
                value: None,
            },
            EnumVariant {
                attributes: [],
                vis_marker: None,
                name: Ident(
                    C,
                ),
                fields: Named(
                    [
                        NamedField {
                            attributes: [],
                            vis_marker: None,
                            name: Ident(
                                foo,
                            ),
                            tk_colon: Punct {
                                char: ':',
                                spacing: Alone,
                            },
                            ty: [
                                Foo,
                                ""<"",
                                "">"",
                            ],
                        },
                        NamedField {
                            attributes: [],
                            vis_marker: None,
                            name: Ident(
                                bar,
                            ),
                            tk_colon: Punct {
                                char: ':',
                                spacing: Alone,
                            },
                            ty: [
                                Bar,
                            ],
                        },
                    ],
                ),
                value: None,
            },
        ],
    },
)".
Proof. snapshot. Qed.

(** [parse_complex_enum_variant], src/tests.rs:574-599. *)
Example parse_complex_enum_variant : test_result
"enum Hello { A = 1, B(Foo, Bar) = 1 + 2 + 3, }"
"Err(
    Error(
        ""Complex values for enum variants are not supported unless they are between parentheses."",
    ),
)".
Proof. snapshot. Qed.

Example parse_complex_enum_variant_2 : test_result
"enum Hello { A = 1, B { foo: Foo, bar: Bar } = foo(bar), }"
"Err(
    Error(
        ""Complex values for enum variants are not supported unless they are between parentheses."",
    ),
)".
Proof. snapshot. Qed.

Example parse_complex_enum_variant_3 : test_result
"enum Hello { A = 1, B(Foo, Bar) = [1 + 2 + 3], C { foo: Foo, bar: Bar } = (foo(bar)), }"
"Ok(
    Enum(
        Enum {
            attributes: [],
            vis_marker: None,
            tk_enum: Ident(
                enum,
            ),
            name: Ident(
                Hello,
            ),
            generic_params: None,
            where_clauses: None,
            variants: [
                EnumVariant {
                    attributes: [],
                    vis_marker: None,
                    name: Ident(
                        A,
                    ),
                    fields: Unit,
                    value: Some(
                        EnumVariantValue {
                            tk_equal: Punct {
                                char: '=',
                                spacing: Alone,
                            },
                            value: Literal {
                                lit: 1,
                            },
                        },
                    ),
                },
                EnumVariant {
                    attributes: [],
                    vis_marker: None,
                    name: Ident(
                        B,
                    ),
                    fields: Tuple(
                        [
                            TupleField {
                                attributes: [],
                                vis_marker: None,
                                ty: [
                                    Foo,
                                ],
                            },
                            TupleField {
                                attributes: [],
                                vis_marker: None,
                                ty: [
                                    Bar,
                                ],
                            },
                        ],
                    ),
                    value: Some(
                        EnumVariantValue {
                            tk_equal: Punct {
                                char: '=',
                                spacing: Alone,
                            },
                            value: Group {
                                delimiter: Bracket,
                                stream: TokenStream [
                                    Literal {
                                        lit: 1,
                                    },
                                    Punct {
                                        char: '+',
                                        spacing: Alone,
                                    },
                                    Literal {
                                        lit: 2,
                                    },
                                    Punct {
                                        char: '+',
                                        spacing: Alone,
                                    },
                                    Literal {
                                        lit: 3,
                                    },
                                ],
                            },
                        },
                    ),
                },
                EnumVariant {
                    attributes: [],
                    vis_marker: None,
                    name: Ident(
                        C,
                    ),
                    fields: Named(
                        [
                            NamedField {
                                attributes: [],
                                vis_marker: None,
                                name: Ident(
                                    foo,
                                ),
                                tk_colon: Punct {
                                    char: ':',
                                    spacing: Alone,
                                },
                                ty: [
                                    Foo,
                                ],
                            },
                            NamedField {
                                attributes: [],
                                vis_marker: None,
                                name: Ident(
                                    bar,
                                ),
                                tk_colon: Punct {
                                    char: ':',
                                    spacing: Alone,
                                },
                                ty: [
                                    Bar,
                                ],
                            },
                        ],
                    ),
                    value: Some(
                        EnumVariantValue {
                            tk_equal: Punct {
                                char: '=',
                                spacing: Alone,
                            },
                            value: Group {
                                delimiter: Parenthesis,
                                stream: TokenStream [
                                    Ident {
                                        sym: foo,
                                    },
                                    Group {
                                        delimiter: Parenthesis,
                                        stream: TokenStream [
                                            Ident {
                                                sym: bar,
                                            },
                                        ],
                                    },
                                ],
                            },
                        },
                    ),
                },
            ],
        },
    ),
)".
Proof. snapshot. Qed.

(** [parse_enum_with_macro], src/tests.rs:602-612. *)
Example parse_enum_with_macro :
  test_panics "enum Hello { A = 1, macroified! { B = 2 }, macroified!(B; 2), }".
Proof. snapshot. Qed.

(** [parse_const_generics], src/tests.rs:618-625. *)
Example parse_const_generics : test_checked
"struct Hello(Array<A, { 123 + (1, 2, 3) }>, B<{ 1 }, { 2 }>);"
"Struct(
    Struct {
        attributes: [],
        vis_marker: None,
        tk_struct: Ident(
            struct,
        ),
        name: Ident(
            Hello,
        ),
        generic_params: None,
        where_clause: None,
        fields: Tuple(
            [
                TupleField {
                    attributes: [],
                    vis_marker: None,
                    ty: [
                        Array,
                        ""<"",
                        A,
                        "","",
                        Group {
                            delimiter: Brace,
                            stream: TokenStream [
                                Literal {
                                    lit: 123,
                                },
                                Punct {
                                    char: '+',
                                    spacing: Alone,
                                },
                                Group {
                                    delimiter: Parenthesis,
                                    stream: TokenStream [
                                        Literal {
                                            lit: 1,
                                        },
                                        Punct {
                                            char: ',',
                                            spacing: Alone,
                                        },
                                        Literal {
                                            lit: 2,
                                        },
                                        Punct {
                                            char: ',',
                                            spacing: Alone,
                                        },
                                        Literal {
                                            lit: 3,
                                        },
                                    ],
                                },
                            ],
                        },
                        "">"",
                    ],
                },
                TupleField {
                    attributes: [],
                    vis_marker: None,
                    ty: [
                        B,
                        ""<"",
                        Group {
                            delimiter: Brace,
                            stream: TokenStream [
                                Literal {
                                    lit: 1,
                                },
                            ],
                        },
                        "","",
                        Group {
                            delimiter: Brace,
                            stream: TokenStream [
                                Literal {
                                    lit: 2,
                                },
                            ],
                        },
                        "">"",
                    ],
                },
            ],
        ),
        tk_semicolon: Some(
            Punct {
                char: ';',
                spacing: Alone,
            },
        ),
    },
)".
Proof. snapshot. Qed.

(** [parse_fn_traits], src/tests.rs:627-637. *)
Example parse_fn_traits : test_checked
"struct Hello( fn(A, B) -> C, A<FnOnce(A, B, C<D>) -> E, );"
"Struct(
    Struct {
        attributes: [],
        vis_marker: None,
        tk_struct: Ident(
            struct,
        ),
        name: Ident(
            Hello,
        ),
        generic_params: None,
        where_clause: None,
        fields: Tuple(
            [
                TupleField {
                    attributes: [],
                    vis_marker: None,
                    ty: [
                        fn,
                        Group {
                            delimiter: Parenthesis,
                            stream: TokenStream [
                                Ident {
                                    sym: A,
                                },
                                Punct {
                                    char: ',',
                                    spacing: Alone,
                                },
                                Ident {
                                    sym: B,
                                },
                            ],
                        },
                        ""-"",
                        "">"",
                        C,
                    ],
                },
                TupleField {
                    attributes: [],
                    vis_marker: None,
                    ty: [
                        A,
                        ""<"",
                        FnOnce,
                        Group {
                            delimiter: Parenthesis,
                            stream: TokenStream [
                                Ident {
                                    sym: A,
                                },
                                Punct {
                                    char: ',',
                                    spacing: Alone,
                                },
                                Ident {
                                    sym: B,
                                },
                                Punct {
                                    char: ',',
                                    spacing: Alone,
                                },
                                Ident {
                                    sym: C,
                                },
                                Punct {
                                    char: '<',
                                    spacing: Alone,
                                },
                                Ident {
                                    sym: D,
                                },
                                Punct {
                                    char: '>',
                                    spacing: Alone,
                                },
                            ],
                        },
                        ""-"",
                        "">"",
                        E,
                        "","",
                    ],
                },
            ],
        ),
        tk_semicolon: Some(
            Punct {
                char: ';',
                spacing: Alone,
            },
        ),
    },
)".
Proof. snapshot. Qed.

(** [parse_multiple_brackets], src/tests.rs:639-651. *)
Example parse_multiple_brackets : test_checked
"struct Hello( A<B<C>>, A<B<C, D>>, <<D as Trait>::X as Trait>::Y, );"
"Struct(
    Struct {
        attributes: [],
        vis_marker: None,
        tk_struct: Ident(
            struct,
        ),
        name: Ident(
            Hello,
        ),
        generic_params: None,
        where_clause: None,
        fields: Tuple(
            [
                TupleField {
                    attributes: [],
                    vis_marker: None,
                    ty: [
                        A,
                        ""<"",
                        B,
                        ""<"",
                        C,
                        "">"",
                        "">"",
                    ],
                },
                TupleField {
                    attributes: [],
                    vis_marker: None,
                    ty: [
                        A,
                        ""<"",
                        B,
                        ""<"",
                        C,
                        "","",
                        D,
                        "">"",
                        "">"",
                    ],
                },
                TupleField {
                    attributes: [],
                    vis_marker: None,
                    ty: [
                        ""<"",
                        ""<"",
                        D,
                        as,
                        Trait,
                        "">"",
                        "":"",
                        "":"",
                        X,
                        as,
                        Trait,
                        "">"",
                        "":"",
                        "":"",
                        Y,
                    ],
                },
            ],
        ),
        tk_semicolon: Some(
            Punct {
                char: ';',
                spacing: Alone,
            },
        ),
    },
)".
Proof. snapshot. Qed.

(** [parse_bounded_type_param_no_comma], src/tests.rs:653-662. *)
Example parse_bounded_type_param_no_comma : test_checked
"struct Example<A: Clone> { _test: A, }"
"Struct(
    Struct {
        attributes: [],
        vis_marker: None,
        tk_struct: Ident(
            struct,
        ),
        name: Ident(
            Example,
        ),
        generic_params: Some(
            [
                GenericParam {
                    name: ""A"",
                    bound: Some(
                        [
                            Clone,
                        ],
                    ),
                },
            ],
        ),
        where_clause: None,
        fields: Named(
            [
                NamedField {
                    attributes: [],
                    vis_marker: None,
                    name: Ident(
                        _test,
                    ),
                    tk_colon: Punct {
                        char: ':',
                        spacing: Alone,
                    },
                    ty: [
                        A,
                    ],
                },
            ],
        ),
        tk_semicolon: None,
    },
)".
Proof. snapshot. Qed.

(** [parse_macro_in_where_clause], src/tests.rs:665-677. *)
Example parse_macro_in_where_clause :
  test_panics "enum A where b: c! { : }, {}".
Proof. snapshot. Qed.

(** [parse_fn], src/tests.rs:683-691. *)
Example parse_fn : test_item
"fn hello(a: i32, b: f32) -> String {}"
"Function(
    Function {
        attributes: [],
        vis_marker: None,
        qualifiers: FnQualifiers {
            tk_default: None,
            tk_const: None,
            tk_async: None,
            tk_unsafe: None,
            tk_extern: None,
            extern_abi: None,
        },
        tk_fn_keyword: Ident(
            fn,
        ),
        name: Ident(
            hello,
        ),
        generic_params: None,
        tk_params_parens: (),
        params: [
            Typed(
                FnTypedParam {
                    attributes: [],
                    tk_mut: None,
                    name: Ident(
                        a,
                    ),
                    tk_colon: Punct {
                        char: ':',
                        spacing: Alone,
                    },
                    ty: [
                        i32,
                    ],
                },
            ),
            Typed(
                FnTypedParam {
                    attributes: [],
                    tk_mut: None,
                    name: Ident(
                        b,
                    ),
                    tk_colon: Punct {
                        char: ':',
                        spacing: Alone,
                    },
                    ty: [
                        f32,
                    ],
                },
            ),
        ],
        where_clause: None,
        tk_return_arrow: Some(
            [
                Punct {
                    char: '-',
                    spacing: Joint,
                },
                Punct {
                    char: '>',
                    spacing: Alone,
                },
            ],
        ),
        return_ty: Some(
            [
                String,
            ],
        ),
        tk_semicolon: None,
        body: Some(
            Group {
                delimiter: Brace,
                stream: TokenStream [],
            },
        ),
    },
)".
Proof. snapshot. Qed.

(** [parse_empty_fn], src/tests.rs:693-701. *)
Example parse_empty_fn : test_item
"fn test_me() {}"
"Function(
    Function {
        attributes: [],
        vis_marker: None,
        qualifiers: FnQualifiers {
            tk_default: None,
            tk_const: None,
            tk_async: None,
            tk_unsafe: None,
            tk_extern: None,
            extern_abi: None,
        },
        tk_fn_keyword: Ident(
            fn,
        ),
        name: Ident(
            test_me,
        ),
        generic_params: None,
        tk_params_parens: (),
        params: [],
        where_clause: None,
        tk_return_arrow: None,
        return_ty: None,
        tk_semicolon: None,
        body: Some(
            Group {
                delimiter: Brace,
                stream: TokenStream [],
            },
        ),
    },
)".
Proof. snapshot. Qed.

(** [parse_generic_fn], src/tests.rs:703-711. *)
Example parse_generic_fn : test_item
"fn generic<T, B>(a: T) -> B {}"
"Function(
    Function {
        attributes: [],
        vis_marker: None,
        qualifiers: FnQualifiers {
            tk_default: None,
            tk_const: None,
            tk_async: None,
            tk_unsafe: None,
            tk_extern: None,
            extern_abi: None,
        },
        tk_fn_keyword: Ident(
            fn,
        ),
        name: Ident(
            generic,
        ),
        generic_params: Some(
            [
                GenericParam {
                    name: ""T"",
                    bound: None,
                },
                GenericParam {
                    name: ""B"",
                    bound: None,
                },
            ],
        ),
        tk_params_parens: (),
        params: [
            Typed(
                FnTypedParam {
                    attributes: [],
                    tk_mut: None,
                    name: Ident(
                        a,
                    ),
                    tk_colon: Punct {
                        char: ':',
                        spacing: Alone,
                    },
                    ty: [
                        T,
                    ],
                },
            ),
        ],
        where_clause: None,
        tk_return_arrow: Some(
            [
                Punct {
                    char: '-',
                    spacing: Joint,
                },
                Punct {
                    char: '>',
                    spacing: Alone,
                },
            ],
        ),
        return_ty: Some(
            [
                B,
            ],
        ),
        tk_semicolon: None,
        body: Some(
            Group {
                delimiter: Brace,
                stream: TokenStream [],
            },
        ),
    },
)".
Proof. snapshot. Qed.

(** [parse_where_fn], src/tests.rs:713-734. *)
Example parse_where_fn : test_item
"fn where_clause<T>() -> T where T: Debug, { }"
"Function(
    Function {
        attributes: [],
        vis_marker: None,
        qualifiers: FnQualifiers {
            tk_default: None,
            tk_const: None,
            tk_async: None,
            tk_unsafe: None,
            tk_extern: None,
            extern_abi: None,
        },
        tk_fn_keyword: Ident(
            fn,
        ),
        name: Ident(
            where_clause,
        ),
        generic_params: Some(
            [
                GenericParam {
                    name: ""T"",
                    bound: None,
                },
            ],
        ),
        tk_params_parens: (),
        params: [],
        where_clause: Some(
            [
                [
                    T,
                    "":"",
                    Debug,
                ],
            ],
        ),
        tk_return_arrow: Some(
            [
                Punct {
                    char: '-',
                    spacing: Joint,
                },
                Punct {
                    char: '>',
                    spacing: Alone,
                },
            ],
        ),
        return_ty: Some(
            [
                T,
            ],
        ),
        tk_semicolon: None,
        body: Some(
            Group {
                delimiter: Brace,
                stream: TokenStream [],
            },
        ),
    },
)".
Proof. snapshot. Qed.

Example parse_where_fn_2 : test_item
"fn where_clause<T>() where T: Debug, { }"
"Function(
    Function {
        attributes: [],
        vis_marker: None,
        qualifiers: FnQualifiers {
            tk_default: None,
            tk_const: None,
            tk_async: None,
            tk_unsafe: None,
            tk_extern: None,
            extern_abi: None,
        },
        tk_fn_keyword: Ident(
            fn,
        ),
        name: Ident(
            where_clause,
        ),
        generic_params: Some(
            [
                GenericParam {
                    name: ""T"",
                    bound: None,
                },
            ],
        ),
        tk_params_parens: (),
        params: [],
        where_clause: Some(
            [
                [
                    T,
                    "":"",
                    Debug,
                ],
            ],
        ),
        tk_return_arrow: None,
        return_ty: None,
        tk_semicolon: None,
        body: Some(
            Group {
                delimiter: Brace,
                stream: TokenStream [],
            },
        ),
    },
)".
Proof. snapshot. Qed.

(** [parse_attr_fn], src/tests.rs:736-745. *)
Example parse_attr_fn : test_item
"#[my_attr] fn my_attr_fn(a: i32) {}"
"Function(
    Function {
        attributes: [
            Attribute {
                tk_hash: Punct {
                    char: '#',
                    spacing: Alone,
                },
                tk_brackets: [],
                path: [
                    my_attr,
                ],
                value: Empty,
            },
        ],
        vis_marker: None,
        qualifiers: FnQualifiers {
            tk_default: None,
            tk_const: None,
            tk_async: None,
            tk_unsafe: None,
            tk_extern: None,
            extern_abi: None,
        },
        tk_fn_keyword: Ident(
            fn,
        ),
        name: Ident(
            my_attr_fn,
        ),
        generic_params: None,
        tk_params_parens: (),
        params: [
            Typed(
                FnTypedParam {
                    attributes: [],
                    tk_mut: None,
                    name: Ident(
                        a,
                    ),
                    tk_colon: Punct {
                        char: ':',
                        spacing: Alone,
                    },
                    ty: [
                        i32,
                    ],
                },
            ),
        ],
        where_clause: None,
        tk_return_arrow: None,
        return_ty: None,
        tk_semicolon: None,
        body: Some(
            Group {
                delimiter: Brace,
                stream: TokenStream [],
            },
        ),
    },
)".
Proof. snapshot. Qed.

(** [parse_visi_fn], src/tests.rs:747-755. *)
Example parse_visi_fn : test_item
"pub fn visibility(b: f32) {}"
"Function(
    Function {
        attributes: [],
        vis_marker: Some(
            pub,
        ),
        qualifiers: FnQualifiers {
            tk_default: None,
            tk_const: None,
            tk_async: None,
            tk_unsafe: None,
            tk_extern: None,
            extern_abi: None,
        },
        tk_fn_keyword: Ident(
            fn,
        ),
        name: Ident(
            visibility,
        ),
        generic_params: None,
        tk_params_parens: (),
        params: [
            Typed(
                FnTypedParam {
                    attributes: [],
                    tk_mut: None,
                    name: Ident(
                        b,
                    ),
                    tk_colon: Punct {
                        char: ':',
                        spacing: Alone,
                    },
                    ty: [
                        f32,
                    ],
                },
            ),
        ],
        where_clause: None,
        tk_return_arrow: None,
        return_ty: None,
        tk_semicolon: None,
        body: Some(
            Group {
                delimiter: Brace,
                stream: TokenStream [],
            },
        ),
    },
)".
Proof. snapshot. Qed.

(** [parse_default_fn], src/tests.rs:757-765. *)
Example parse_default_fn : test_item
"pub default fn default_fn(b: f32) {}"
"Function(
    Function {
        attributes: [],
        vis_marker: Some(
            pub,
        ),
        qualifiers: FnQualifiers {
            tk_default: Some(
                Ident(
                    default,
                ),
            ),
            tk_const: None,
            tk_async: None,
            tk_unsafe: None,
            tk_extern: None,
            extern_abi: None,
        },
        tk_fn_keyword: Ident(
            fn,
        ),
        name: Ident(
            default_fn,
        ),
        generic_params: None,
        tk_params_parens: (),
        params: [
            Typed(
                FnTypedParam {
                    attributes: [],
                    tk_mut: None,
                    name: Ident(
                        b,
                    ),
                    tk_colon: Punct {
                        char: ':',
                        spacing: Alone,
                    },
                    ty: [
                        f32,
                    ],
                },
            ),
        ],
        where_clause: None,
        tk_return_arrow: None,
        return_ty: None,
        tk_semicolon: None,
        body: Some(
            Group {
                delimiter: Brace,
                stream: TokenStream [],
            },
        ),
    },
)".
Proof. snapshot. Qed.

(** [parse_const_fn], src/tests.rs:767-775. *)
Example parse_const_fn : test_item
"pub const fn const_fn(b: f32) {}"
"Function(
    Function {
        attributes: [],
        vis_marker: Some(
            pub,
        ),
        qualifiers: FnQualifiers {
            tk_default: None,
            tk_const: Some(
                Ident(
                    const,
                ),
            ),
            tk_async: None,
            tk_unsafe: None,
            tk_extern: None,
            extern_abi: None,
        },
        tk_fn_keyword: Ident(
            fn,
        ),
        name: Ident(
            const_fn,
        ),
        generic_params: None,
        tk_params_parens: (),
        params: [
            Typed(
                FnTypedParam {
                    attributes: [],
                    tk_mut: None,
                    name: Ident(
                        b,
                    ),
                    tk_colon: Punct {
                        char: ':',
                        spacing: Alone,
                    },
                    ty: [
                        f32,
                    ],
                },
            ),
        ],
        where_clause: None,
        tk_return_arrow: None,
        return_ty: None,
        tk_semicolon: None,
        body: Some(
            Group {
                delimiter: Brace,
                stream: TokenStream [],
            },
        ),
    },
)".
Proof. snapshot. Qed.

(** [parse_async_fn], src/tests.rs:777-785. *)
Example parse_async_fn : test_item
"pub async fn async_fn(b: f32) {}"
"Function(
    Function {
        attributes: [],
        vis_marker: Some(
            pub,
        ),
        qualifiers: FnQualifiers {
            tk_default: None,
            tk_const: None,
            tk_async: Some(
                Ident(
                    async,
                ),
            ),
            tk_unsafe: None,
            tk_extern: None,
            extern_abi: None,
        },
        tk_fn_keyword: Ident(
            fn,
        ),
        name: Ident(
            async_fn,
        ),
        generic_params: None,
        tk_params_parens: (),
        params: [
            Typed(
                FnTypedParam {
                    attributes: [],
                    tk_mut: None,
                    name: Ident(
                        b,
                    ),
                    tk_colon: Punct {
                        char: ':',
                        spacing: Alone,
                    },
                    ty: [
                        f32,
                    ],
                },
            ),
        ],
        where_clause: None,
        tk_return_arrow: None,
        return_ty: None,
        tk_semicolon: None,
        body: Some(
            Group {
                delimiter: Brace,
                stream: TokenStream [],
            },
        ),
    },
)".
Proof. snapshot. Qed.

(** [parse_unsafe_fn], src/tests.rs:787-795. *)
Example parse_unsafe_fn : test_item
"pub unsafe fn unsafe_fn(b: f32) {}"
"Function(
    Function {
        attributes: [],
        vis_marker: Some(
            pub,
        ),
        qualifiers: FnQualifiers {
            tk_default: None,
            tk_const: None,
            tk_async: None,
            tk_unsafe: Some(
                Ident(
                    unsafe,
                ),
            ),
            tk_extern: None,
            extern_abi: None,
        },
        tk_fn_keyword: Ident(
            fn,
        ),
        name: Ident(
            unsafe_fn,
        ),
        generic_params: None,
        tk_params_parens: (),
        params: [
            Typed(
                FnTypedParam {
                    attributes: [],
                    tk_mut: None,
                    name: Ident(
                        b,
                    ),
                    tk_colon: Punct {
                        char: ':',
                        spacing: Alone,
                    },
                    ty: [
                        f32,
                    ],
                },
            ),
        ],
        where_clause: None,
        tk_return_arrow: None,
        return_ty: None,
        tk_semicolon: None,
        body: Some(
            Group {
                delimiter: Brace,
                stream: TokenStream [],
            },
        ),
    },
)".
Proof. snapshot. Qed.

(** [parse_extern_abi_fn], src/tests.rs:797-805. *)
Example parse_extern_abi_fn : test_item
"pub extern ""C"" fn extern_fn(b: f32) {}"
"Function(
    Function {
        attributes: [],
        vis_marker: Some(
            pub,
        ),
        qualifiers: FnQualifiers {
            tk_default: None,
            tk_const: None,
            tk_async: None,
            tk_unsafe: None,
            tk_extern: Some(
                Ident(
                    extern,
                ),
            ),
            extern_abi: Some(
                Literal {
                    lit: ""C"",
                },
            ),
        },
        tk_fn_keyword: Ident(
            fn,
        ),
        name: Ident(
            extern_fn,
        ),
        generic_params: None,
        tk_params_parens: (),
        params: [
            Typed(
                FnTypedParam {
                    attributes: [],
                    tk_mut: None,
                    name: Ident(
                        b,
                    ),
                    tk_colon: Punct {
                        char: ':',
                        spacing: Alone,
                    },
                    ty: [
                        f32,
                    ],
                },
            ),
        ],
        where_clause: None,
        tk_return_arrow: None,
        return_ty: None,
        tk_semicolon: None,
        body: Some(
            Group {
                delimiter: Brace,
                stream: TokenStream [],
            },
        ),
    },
)".
Proof. snapshot. Qed.

(** [parse_extern_fn], src/tests.rs:807-816. *)
Example parse_extern_fn : test_item
"pub extern fn extern_fn(b: f32) {}"
"Function(
    Function {
        attributes: [],
        vis_marker: Some(
            pub,
        ),
        qualifiers: FnQualifiers {
            tk_default: None,
            tk_const: None,
            tk_async: None,
            tk_unsafe: None,
            tk_extern: Some(
                Ident(
                    extern,
                ),
            ),
            extern_abi: None,
        },
        tk_fn_keyword: Ident(
            fn,
        ),
        name: Ident(
            extern_fn,
        ),
        generic_params: None,
        tk_params_parens: (),
        params: [
            Typed(
                FnTypedParam {
                    attributes: [],
                    tk_mut: None,
                    name: Ident(
                        b,
                    ),
                    tk_colon: Punct {
                        char: ':',
                        spacing: Alone,
                    },
                    ty: [
                        f32,
                    ],
                },
            ),
        ],
        where_clause: None,
        tk_return_arrow: None,
        return_ty: None,
        tk_semicolon: None,
        body: Some(
            Group {
                delimiter: Brace,
                stream: TokenStream [],
            },
        ),
    },
)".
Proof. snapshot. Qed.

(** [parse_all_kw_fn], src/tests.rs:818-826. *)
Example parse_all_kw_fn : test_item
"pub default const async unsafe extern ""C"" fn all_kw(b: f32) {}"
"Function(
    Function {
        attributes: [],
        vis_marker: Some(
            pub,
        ),
        qualifiers: FnQualifiers {
            tk_default: Some(
                Ident(
                    default,
                ),
            ),
            tk_const: Some(
                Ident(
                    const,
                ),
            ),
            tk_async: Some(
                Ident(
                    async,
                ),
            ),
            tk_unsafe: Some(
                Ident(
                    unsafe,
                ),
            ),
            tk_extern: Some(
                Ident(
                    extern,
                ),
            ),
            extern_abi: Some(
                Literal {
                    lit: ""C"",
                },
            ),
        },
        tk_fn_keyword: Ident(
            fn,
        ),
        name: Ident(
            all_kw,
        ),
        generic_params: None,
        tk_params_parens: (),
        params: [
            Typed(
                FnTypedParam {
                    attributes: [],
                    tk_mut: None,
                    name: Ident(
                        b,
                    ),
                    tk_colon: Punct {
                        char: ':',
                        spacing: Alone,
                    },
                    ty: [
                        f32,
                    ],
                },
            ),
        ],
        where_clause: None,
        tk_return_arrow: None,
        return_ty: None,
        tk_semicolon: None,
        body: Some(
            Group {
                delimiter: Brace,
                stream: TokenStream [],
            },
        ),
    },
)".
Proof. snapshot. Qed.

(** [parse_param_attr_fn], src/tests.rs:828-836. *)
Example parse_param_attr_fn : test_item
"pub async fn visibility(#[my_attr] b: f32) {}"
"Function(
    Function {
        attributes: [],
        vis_marker: Some(
            pub,
        ),
        qualifiers: FnQualifiers {
            tk_default: None,
            tk_const: None,
            tk_async: Some(
                Ident(
                    async,
                ),
            ),
            tk_unsafe: None,
            tk_extern: None,
            extern_abi: None,
        },
        tk_fn_keyword: Ident(
            fn,
        ),
        name: Ident(
            visibility,
        ),
        generic_params: None,
        tk_params_parens: (),
        params: [
            Typed(
                FnTypedParam {
                    attributes: [
                        Attribute {
                            tk_hash: Punct {
                                char: '#',
                                spacing: Alone,
                            },
                            tk_brackets: [],
                            path: [
                                my_attr,
                            ],
                            value: Empty,
                        },
                    ],
                    tk_mut: None,
                    name: Ident(
                        b,
                    ),
                    tk_colon: Punct {
                        char: ':',
                        spacing: Alone,
                    },
                    ty: [
                        f32,
                    ],
                },
            ),
        ],
        where_clause: None,
        tk_return_arrow: None,
        return_ty: None,
        tk_semicolon: None,
        body: Some(
            Group {
                delimiter: Brace,
                stream: TokenStream [],
            },
        ),
    },
)".
Proof. snapshot. Qed.

(** [parse_fn_body], src/tests.rs:838-848. *)
Example parse_fn_body : test_item
"fn hello_world(a: i32, b: f32) -> String { println!(""hello world"") }"
"Function(
    Function {
        attributes: [],
        vis_marker: None,
        qualifiers: FnQualifiers {
            tk_default: None,
            tk_const: None,
            tk_async: None,
            tk_unsafe: None,
            tk_extern: None,
            extern_abi: None,
        },
        tk_fn_keyword: Ident(
            fn,
        ),
        name: Ident(
            hello_world,
        ),
        generic_params: None,
        tk_params_parens: (),
        params: [
            Typed(
                FnTypedParam {
                    attributes: [],
                    tk_mut: None,
                    name: Ident(
                        a,
                    ),
                    tk_colon: Punct {
                        char: ':',
                        spacing: Alone,
                    },
                    ty: [
                        i32,
                    ],
                },
            ),
            Typed(
                FnTypedParam {
                    attributes: [],
                    tk_mut: None,
                    name: Ident(
                        b,
                    ),
                    tk_colon: Punct {
                        char: ':',
                        spacing: Alone,
                    },
                    ty: [
                        f32,
                    ],
                },
            ),
        ],
        where_clause: None,
        tk_return_arrow: Some(
            [
                Punct {
                    char: '-',
                    spacing: Joint,
                },
                Punct {
                    char: '>',
                    spacing: Alone,
                },
            ],
        ),
        return_ty: Some(
            [
                String,
            ],
        ),
        tk_semicolon: None,
        body: Some(
            Group {
                delimiter: Brace,
                stream: TokenStream [
                    Ident {
                        sym: println,
                    },
                    Punct {
                        char: '!',
                        spacing: Alone,
                    },
                    Group {
                        delimiter: Parenthesis,
                        stream: TokenStream [
                            Literal {
                                lit: ""hello world"",
                            },
                        ],
                    },
                ],
            },
        ),
    },
)".
Proof. snapshot. Qed.

(** [parse_fn_prototype], src/tests.rs:850-858. *)
Example parse_fn_prototype : test_item
"fn prototype(a: i32, b: f32) -> String;"
"Function(
    Function {
        attributes: [],
        vis_marker: None,
        qualifiers: FnQualifiers {
            tk_default: None,
            tk_const: None,
            tk_async: None,
            tk_unsafe: None,
            tk_extern: None,
            extern_abi: None,
        },
        tk_fn_keyword: Ident(
            fn,
        ),
        name: Ident(
            prototype,
        ),
        generic_params: None,
        tk_params_parens: (),
        params: [
            Typed(
                FnTypedParam {
                    attributes: [],
                    tk_mut: None,
                    name: Ident(
                        a,
                    ),
                    tk_colon: Punct {
                        char: ':',
                        spacing: Alone,
                    },
                    ty: [
                        i32,
                    ],
                },
            ),
            Typed(
                FnTypedParam {
                    attributes: [],
                    tk_mut: None,
                    name: Ident(
                        b,
                    ),
                    tk_colon: Punct {
                        char: ':',
                        spacing: Alone,
                    },
                    ty: [
                        f32,
                    ],
                },
            ),
        ],
        where_clause: None,
        tk_return_arrow: Some(
            [
                Punct {
                    char: '-',
                    spacing: Joint,
                },
                Punct {
                    char: '>',
                    spacing: Alone,
                },
            ],
        ),
        return_ty: Some(
            [
                String,
            ],
        ),
        tk_semicolon: Some(
            Punct {
                char: ';',
                spacing: Alone,
            },
        ),
        body: None,
    },
)".
Proof. snapshot. Qed.

(** [parse_fn_mut_param], src/tests.rs:860-868. *)
Example parse_fn_mut_param : test_item
"fn prototype(a: i32, mut b: f32) -> String;"
"Function(
    Function {
        attributes: [],
        vis_marker: None,
        qualifiers: FnQualifiers {
            tk_default: None,
            tk_const: None,
            tk_async: None,
            tk_unsafe: None,
            tk_extern: None,
            extern_abi: None,
        },
        tk_fn_keyword: Ident(
            fn,
        ),
        name: Ident(
            prototype,
        ),
        generic_params: None,
        tk_params_parens: (),
        params: [
            Typed(
                FnTypedParam {
                    attributes: [],
                    tk_mut: None,
                    name: Ident(
                        a,
                    ),
                    tk_colon: Punct {
                        char: ':',
                        spacing: Alone,
                    },
                    ty: [
                        i32,
                    ],
                },
            ),
            Typed(
                FnTypedParam {
                    attributes: [],
                    tk_mut: Some(
                        Ident(
                            mut,
                        ),
                    ),
                    name: Ident(
                        b,
                    ),
                    tk_colon: Punct {
                        char: ':',
                        spacing: Alone,
                    },
                    ty: [
                        f32,
                    ],
                },
            ),
        ],
        where_clause: None,
        tk_return_arrow: Some(
            [
                Punct {
                    char: '-',
                    spacing: Joint,
                },
                Punct {
                    char: '>',
                    spacing: Alone,
                },
            ],
        ),
        return_ty: Some(
            [
                String,
            ],
        ),
        tk_semicolon: Some(
            Punct {
                char: ';',
                spacing: Alone,
            },
        ),
        body: None,
    },
)".
Proof. snapshot. Qed.

(** [parse_fn_lifetimes], src/tests.rs:870-878. *)
Example parse_fn_lifetimes : test_item
"fn prototype<'a>(a: &'a mut i32) -> &'a String;"
"Function(
    Function {
        attributes: [],
        vis_marker: None,
        qualifiers: FnQualifiers {
            tk_default: None,
            tk_const: None,
            tk_async: None,
            tk_unsafe: None,
            tk_extern: None,
            extern_abi: None,
        },
        tk_fn_keyword: Ident(
            fn,
        ),
        name: Ident(
            prototype,
        ),
        generic_params: Some(
            [
                GenericParam {
                    tk_prefix: ""'"",
                    name: ""a"",
                    bound: None,
                },
            ],
        ),
        tk_params_parens: (),
        params: [
            Typed(
                FnTypedParam {
                    attributes: [],
                    tk_mut: None,
                    name: Ident(
                        a,
                    ),
                    tk_colon: Punct {
                        char: ':',
                        spacing: Alone,
                    },
                    ty: [
                        ""&"",
                        ""'"",
                        a,
                        mut,
                        i32,
                    ],
                },
            ),
        ],
        where_clause: None,
        tk_return_arrow: Some(
            [
                Punct {
                    char: '-',
                    spacing: Joint,
                },
                Punct {
                    char: '>',
                    spacing: Alone,
                },
            ],
        ),
        return_ty: Some(
            [
                ""&"",
                ""'"",
                a,
                String,
            ],
        ),
        tk_semicolon: Some(
            Punct {
                char: ';',
                spacing: Alone,
            },
        ),
        body: None,
    },
)".
Proof. snapshot. Qed.

(** [parse_fn_receiver_lifetime], src/tests.rs:880-888. *)
Example parse_fn_receiver_lifetime : test_item
"fn prototype(&'lifetime self);"
"Function(
    Function {
        attributes: [],
        vis_marker: None,
        qualifiers: FnQualifiers {
            tk_default: None,
            tk_const: None,
            tk_async: None,
            tk_unsafe: None,
            tk_extern: None,
            extern_abi: None,
        },
        tk_fn_keyword: Ident(
            fn,
        ),
        name: Ident(
            prototype,
        ),
        generic_params: None,
        tk_params_parens: (),
        params: [
            Receiver(
                FnReceiverParam {
                    attributes: [],
                    tk_ref: Some(
                        Punct {
                            char: '&',
                            spacing: Alone,
                        },
                    ),
                    lifetime: Some(
                        Lifetime {
                            tk_apostrophe: Punct {
                                char: '\'',
                                spacing: Joint,
                            },
                            name: Ident(
                                lifetime,
                            ),
                        },
                    ),
                    tk_mut: None,
                    tk_self: Ident(
                        self,
                    ),
                },
            ),
        ],
        where_clause: None,
        tk_return_arrow: None,
        return_ty: None,
        tk_semicolon: Some(
            Punct {
                char: ';',
                spacing: Alone,
            },
        ),
        body: None,
    },
)".
Proof. snapshot. Qed.

(** [parse_fn_mut_receiver_lifetime], src/tests.rs:890-898. *)
Example parse_fn_mut_receiver_lifetime : test_item
"fn prototype<'a>(&'a mut self);"
"Function(
    Function {
        attributes: [],
        vis_marker: None,
        qualifiers: FnQualifiers {
            tk_default: None,
            tk_const: None,
            tk_async: None,
            tk_unsafe: None,
            tk_extern: None,
            extern_abi: None,
        },
        tk_fn_keyword: Ident(
            fn,
        ),
        name: Ident(
            prototype,
        ),
        generic_params: Some(
            [
                GenericParam {
                    tk_prefix: ""'"",
                    name: ""a"",
                    bound: None,
                },
            ],
        ),
        tk_params_parens: (),
        params: [
            Receiver(
                FnReceiverParam {
                    attributes: [],
                    tk_ref: Some(
                        Punct {
                            char: '&',
                            spacing: Alone,
                        },
                    ),
                    lifetime: Some(
                        Lifetime {
                            tk_apostrophe: Punct {
                                char: '\'',
                                spacing: Joint,
                            },
                            name: Ident(
                                a,
                            ),
                        },
                    ),
                    tk_mut: Some(
                        Ident(
                            mut,
                        ),
                    ),
                    tk_self: Ident(
                        self,
                    ),
                },
            ),
        ],
        where_clause: None,
        tk_return_arrow: None,
        return_ty: None,
        tk_semicolon: Some(
            Punct {
                char: ';',
                spacing: Alone,
            },
        ),
        body: None,
    },
)".
Proof. snapshot. Qed.

(** [parse_fn_pattern_arg], src/tests.rs:901-910. *)
Example parse_fn_pattern_arg :
  test_panics "fn foobar((a, b): (i32, i32)) {}".
Proof. snapshot. Qed.

(** [parse_fn_c_variadics], src/tests.rs:913-922. *)
Example parse_fn_c_variadics :
  test_panics "fn foobar(a: i32, ...) {}".
Proof. snapshot. Qed.

(** [parse_fn_no_pattern], src/tests.rs:925-934. *)
Example parse_fn_no_pattern :
  test_panics "fn foobar(i32) {}".
Proof. snapshot. Qed.

(** [parse_fn_self_param], src/tests.rs:936-955. *)
Example parse_fn_self_param : test_result
"fn foobar(self) {}"
"Ok(
    Function(
        Function {
            attributes: [],
            vis_marker: None,
            qualifiers: FnQualifiers {
                tk_default: None,
                tk_const: None,
                tk_async: None,
                tk_unsafe: None,
                tk_extern: None,
                extern_abi: None,
            },
            tk_fn_keyword: Ident(
                fn,
            ),
            name: Ident(
                foobar,
            ),
            generic_params: None,
            tk_params_parens: (),
            params: [
                Receiver(
                    FnReceiverParam {
                        attributes: [],
                        tk_ref: None,
                        lifetime: None,
                        tk_mut: None,
                        tk_self: Ident(
                            self,
                        ),
                    },
                ),
            ],
            where_clause: None,
            tk_return_arrow: None,
            return_ty: None,
            tk_semicolon: None,
            body: Some(
                Group {
                    delimiter: Brace,
                    stream: TokenStream [],
                },
            ),
        },
    ),
)".
Proof. snapshot. Qed.

Example parse_fn_self_param_2 : test_result
"fn foobar(&self) {}"
"Ok(
    Function(
        Function {
            attributes: [],
            vis_marker: None,
            qualifiers: FnQualifiers {
                tk_default: None,
                tk_const: None,
                tk_async: None,
                tk_unsafe: None,
                tk_extern: None,
                extern_abi: None,
            },
            tk_fn_keyword: Ident(
                fn,
            ),
            name: Ident(
                foobar,
            ),
            generic_params: None,
            tk_params_parens: (),
            params: [
                Receiver(
                    FnReceiverParam {
                        attributes: [],
                        tk_ref: Some(
                            Punct {
                                char: '&',
                                spacing: Alone,
                            },
                        ),
                        lifetime: None,
                        tk_mut: None,
                        tk_self: Ident(
                            self,
                        ),
                    },
                ),
            ],
            where_clause: None,
            tk_return_arrow: None,
            return_ty: None,
            tk_semicolon: None,
            body: Some(
                Group {
                    delimiter: Brace,
                    stream: TokenStream [],
                },
            ),
        },
    ),
)".
Proof. snapshot. Qed.

Example parse_fn_self_param_3 : test_result
"fn foobar(mut self) {}"
"Ok(
    Function(
        Function {
            attributes: [],
            vis_marker: None,
            qualifiers: FnQualifiers {
                tk_default: None,
                tk_const: None,
                tk_async: None,
                tk_unsafe: None,
                tk_extern: None,
                extern_abi: None,
            },
            tk_fn_keyword: Ident(
                fn,
            ),
            name: Ident(
                foobar,
            ),
            generic_params: None,
            tk_params_parens: (),
            params: [
                Receiver(
                    FnReceiverParam {
                        attributes: [],
                        tk_ref: None,
                        lifetime: None,
                        tk_mut: Some(
                            Ident(
                                mut,
                            ),
                        ),
                        tk_self: Ident(
                            self,
                        ),
                    },
                ),
            ],
            where_clause: None,
            tk_return_arrow: None,
            return_ty: None,
            tk_semicolon: None,
            body: Some(
                Group {
                    delimiter: Brace,
                    stream: TokenStream [],
                },
            ),
        },
    ),
)".
Proof. snapshot. Qed.

Example parse_fn_self_param_4 : test_result
"fn foobar(&mut self) {}"
"Ok(
    Function(
        Function {
            attributes: [],
            vis_marker: None,
            qualifiers: FnQualifiers {
                tk_default: None,
                tk_const: None,
                tk_async: None,
                tk_unsafe: None,
                tk_extern: None,
                extern_abi: None,
            },
            tk_fn_keyword: Ident(
                fn,
            ),
            name: Ident(
                foobar,
            ),
            generic_params: None,
            tk_params_parens: (),
            params: [
                Receiver(
                    FnReceiverParam {
                        attributes: [],
                        tk_ref: Some(
                            Punct {
                                char: '&',
                                spacing: Alone,
                            },
                        ),
                        lifetime: None,
                        tk_mut: Some(
                            Ident(
                                mut,
                            ),
                        ),
                        tk_self: Ident(
                            self,
                        ),
                    },
                ),
            ],
            where_clause: None,
            tk_return_arrow: None,
            return_ty: None,
            tk_semicolon: None,
            body: Some(
                Group {
                    delimiter: Brace,
                    stream: TokenStream [],
                },
            ),
        },
    ),
)".
Proof. snapshot. Qed.

(** [parse_struct_with_macro], src/tests.rs:969-981. *)
Example parse_struct_with_macro :
  test_panics "struct Hello { a: A, b: B, transmogrify! { c: C, } }".
Proof. snapshot. Qed.

(** [parse_impl_inherent], src/tests.rs:1129-1156. *)
Example parse_impl_inherent : test_checked
"#[outer] impl MyStruct { #![inner] fn new(i: i32, b: bool) -> Self { Self {} } #[attr] pub(crate) fn set_value(&mut self, s: String) {} pub const CONSTANT: i8 = 24 + 7; #[clippy::allow(venial)] fn_macro!(MyTrait); block_macro! { fn inner_fn() -> bool; } }"
"Impl(
    Impl {
        attributes: [
            Attribute {
                tk_hash: Punct {
                    char: '#',
                    spacing: Alone,
                },
                tk_brackets: [],
                path: [
                    outer,
                ],
                value: Empty,
            },
        ],
        tk_unsafe: None,
        tk_impl: Ident(
            impl,
        ),
        impl_generic_params: None,
        trait_ty: None,
        tk_for: None,
        self_ty: [
            MyStruct,
        ],
        where_clause: None,
        tk_braces: {},
        inner_attributes: [
            Attribute {
                tk_hash: Punct {
                    char: '#',
                    spacing: Alone,
                },
                tk_bang: Punct {
                    char: '!',
                    spacing: Alone,
                },
                tk_brackets: [],
                path: [
                    inner,
                ],
                value: Empty,
            },
        ],
        body_items: [
            AssocFunction(
                Function {
                    attributes: [],
                    vis_marker: None,
                    qualifiers: FnQualifiers {
                        tk_default: None,
                        tk_const: None,
                        tk_async: None,
                        tk_unsafe: None,
                        tk_extern: None,
                        extern_abi: None,
                    },
                    tk_fn_keyword: Ident(
                        fn,
                    ),
                    name: Ident(
                        new,
                    ),
                    generic_params: None,
                    tk_params_parens: (),
                    params: [
                        Typed(
                            FnTypedParam {
                                attributes: [],
                                tk_mut: None,
                                name: Ident(
                                    i,
                                ),
                                tk_colon: Punct {
                                    char: ':',
                                    spacing: Alone,
                                },
                                ty: [
                                    i32,
                                ],
                            },
                        ),
                        Typed(
                            FnTypedParam {
                                attributes: [],
                                tk_mut: None,
                                name: Ident(
                                    b,
                                ),
                                tk_colon: Punct {
                                    char: ':',
                                    spacing: Alone,
                                },
                                ty: [
                                    bool,
                                ],
                            },
                        ),
                    ],
                    where_clause: None,
                    tk_return_arrow: Some(
                        [
                            Punct {
                                char: '-',
                                spacing: Joint,
                            },
                            Punct {
                                char: '>',
                                spacing: Alone,
                            },
                        ],
                    ),
                    return_ty: Some(
                        [
                            Self,
                        ],
                    ),
                    tk_semicolon: None,
                    body: Some(
                        Group {
                            delimiter: Brace,
                            stream: TokenStream [
                                Ident {
                                    sym: Self,
                                },
                                Group {
                                    delimiter: Brace,
                                    stream: TokenStream [],
                                },
                            ],
                        },
                    ),
                },
            ),
            AssocFunction(
                Function {
                    attributes: [
                        Attribute {
                            tk_hash: Punct {
                                char: '#',
                                spacing: Alone,
                            },
                            tk_brackets: [],
                            path: [
                                attr,
                            ],
                            value: Empty,
                        },
                    ],
                    vis_marker: Some(
                        pub(
                            crate,
                        ),
                    ),
                    qualifiers: FnQualifiers {
                        tk_default: None,
                        tk_const: None,
                        tk_async: None,
                        tk_unsafe: None,
                        tk_extern: None,
                        extern_abi: None,
                    },
                    tk_fn_keyword: Ident(
                        fn,
                    ),
                    name: Ident(
                        set_value,
                    ),
                    generic_params: None,
                    tk_params_parens: (),
                    params: [
                        Receiver(
                            FnReceiverParam {
                                attributes: [],
                                tk_ref: Some(
                                    Punct {
                                        char: '&',
                                        spacing: Alone,
                                    },
                                ),
                                lifetime: None,
                                tk_mut: Some(
                                    Ident(
                                        mut,
                                    ),
                                ),
                                tk_self: Ident(
                                    self,
                                ),
                            },
                        ),
                        Typed(
                            FnTypedParam {
                                attributes: [],
                                tk_mut: None,
                                name: Ident(
                                    s,
                                ),
                                tk_colon: Punct {
                                    char: ':',
                                    spacing: Alone,
                                },
                                ty: [
                                    String,
                                ],
                            },
                        ),
                    ],
                    where_clause: None,
                    tk_return_arrow: None,
                    return_ty: None,
                    tk_semicolon: None,
                    body: Some(
                        Group {
                            delimiter: Brace,
                            stream: TokenStream [],
                        },
                    ),
                },
            ),
            AssocConstant(
                Constant {
                    attributes: [],
                    vis_marker: Some(
                        pub,
                    ),
                    tk_const_or_static: Ident(
                        const,
                    ),
                    tk_mut: None,
                    name: Ident(
                        CONSTANT,
                    ),
                    tk_colon: Punct {
                        char: ':',
                        spacing: Alone,
                    },
                    ty: [
                        i8,
                    ],
                    tk_equals: Some(
                        Punct {
                            char: '=',
                            spacing: Alone,
                        },
                    ),
                    initializer: Some(
                        [
                            24,
                            ""+"",
                            7,
                        ],
                    ),
                    tk_semicolon: Punct {
                        char: ';',
                        spacing: Alone,
                    },
                },
            ),
            Macro(
                Macro {
                    attributes: [
                        Attribute {
                            tk_hash: Punct {
                                char: '#',
                                spacing: Alone,
                            },
                            tk_brackets: [],
                            path: [
                                clippy,
                                "":"",
                                "":"",
                                allow,
                            ],
                            value: Group(
                                [
                                    venial,
                                ],
                                (),
                            ),
                        },
                    ],
                    name: Ident(
                        fn_macro,
                    ),
                    tk_bang: Punct {
                        char: '!',
                        spacing: Alone,
                    },
                    tk_declared_name: None,
                    tk_braces_or_parens: (),
                    inner_tokens: [
                        Ident {
                            sym: MyTrait,
                        },
                    ],
                    tk_semicolon: Some(
                        Punct {
                            char: ';',
                            spacing: Alone,
                        },
                    ),
                },
            ),
            Macro(
                Macro {
                    attributes: [],
                    name: Ident(
                        block_macro,
                    ),
                    tk_bang: Punct {
                        char: '!',
                        spacing: Alone,
                    },
                    tk_declared_name: None,
                    tk_braces_or_parens: {},
                    inner_tokens: [
                        Ident {
                            sym: fn,
                        },
                        Ident {
                            sym: inner_fn,
                        },
                        Group {
                            delimiter: Parenthesis,
                            stream: TokenStream [],
                        },
                        Punct {
                            char: '-',
                            spacing: Joint,
                        },
                        Punct {
                            char: '>',
                            spacing: Alone,
                        },
                        Ident {
                            sym: bool,
                        },
                        Punct {
                            char: ';',
                            spacing: Alone,
                        },
                    ],
                    tk_semicolon: None,
                },
            ),
        ],
    },
)".
Proof. snapshot. Qed.

(** [parse_impl_inherent_generic], src/tests.rs:1158-1166. *)
Example parse_impl_inherent_generic : test_checked
"impl<'a, T: Clone, const N: i8> structs::MyStruct<'a, T, N> {}"
"Impl(
    Impl {
        attributes: [],
        tk_unsafe: None,
        tk_impl: Ident(
            impl,
        ),
        impl_generic_params: Some(
            [
                GenericParam {
                    tk_prefix: ""'"",
                    name: ""a"",
                    bound: None,
                },
                GenericParam {
                    name: ""T"",
                    bound: Some(
                        [
                            Clone,
                        ],
                    ),
                },
                GenericParam {
                    tk_prefix: ""const"",
                    name: ""N"",
                    bound: Some(
                        [
                            i8,
                        ],
                    ),
                },
            ],
        ),
        trait_ty: None,
        tk_for: None,
        self_ty: [
            structs,
            "":"",
            "":"",
            MyStruct,
            ""<"",
            ""'"",
            a,
            "","",
            T,
            "","",
            N,
            "">"",
        ],
        where_clause: None,
        tk_braces: {},
        inner_attributes: [],
        body_items: [],
    },
)".
Proof. snapshot. Qed.

(** [parse_impl_trait], src/tests.rs:1168-1200. *)
Example parse_impl_trait : test_checked
"#[outer] impl MyTrait for MyStruct { #![inner] #![inner2] #[attr] #[attr2] pub type MyType = std::string::String; fn new(i: i32, b: bool) -> Self { Self {} } #[attr] const fn set_value(&mut self, s: String) {} const CONSTANT: i8 = 24 + 7; #[clippy::allow(venial)] fn_macro!(MyTrait); block_macro! { fn inner_fn() -> bool; } }"
"Impl(
    Impl {
        attributes: [
            Attribute {
                tk_hash: Punct {
                    char: '#',
                    spacing: Alone,
                },
                tk_brackets: [],
                path: [
                    outer,
                ],
                value: Empty,
            },
        ],
        tk_unsafe: None,
        tk_impl: Ident(
            impl,
        ),
        impl_generic_params: None,
        trait_ty: Some(
            [
                MyTrait,
            ],
        ),
        tk_for: Some(
            Ident(
                for,
            ),
        ),
        self_ty: [
            MyStruct,
        ],
        where_clause: None,
        tk_braces: {},
        inner_attributes: [
            Attribute {
                tk_hash: Punct {
                    char: '#',
                    spacing: Alone,
                },
                tk_bang: Punct {
                    char: '!',
                    spacing: Alone,
                },
                tk_brackets: [],
                path: [
                    inner,
                ],
                value: Empty,
            },
            Attribute {
                tk_hash: Punct {
                    char: '#',
                    spacing: Alone,
                },
                tk_bang: Punct {
                    char: '!',
                    spacing: Alone,
                },
                tk_brackets: [],
                path: [
                    inner2,
                ],
                value: Empty,
            },
        ],
        body_items: [
            AssocType(
                TypeAlias {
                    attributes: [
                        Attribute {
                            tk_hash: Punct {
                                char: '#',
                                spacing: Alone,
                            },
                            tk_brackets: [],
                            path: [
                                attr,
                            ],
                            value: Empty,
                        },
                        Attribute {
                            tk_hash: Punct {
                                char: '#',
                                spacing: Alone,
                            },
                            tk_brackets: [],
                            path: [
                                attr2,
                            ],
                            value: Empty,
                        },
                    ],
                    vis_marker: Some(
                        pub,
                    ),
                    tk_type: Ident(
                        type,
                    ),
                    name: Ident(
                        MyType,
                    ),
                    bound: None,
                    tk_equals: Some(
                        Punct {
                            char: '=',
                            spacing: Alone,
                        },
                    ),
                    initializer_ty: Some(
                        [
                            std,
                            "":"",
                            "":"",
                            string,
                            "":"",
                            "":"",
                            String,
                        ],
                    ),
                    tk_semicolon: Punct {
                        char: ';',
                        spacing: Alone,
                    },
                },
            ),
            AssocFunction(
                Function {
                    attributes: [],
                    vis_marker: None,
                    qualifiers: FnQualifiers {
                        tk_default: None,
                        tk_const: None,
                        tk_async: None,
                        tk_unsafe: None,
                        tk_extern: None,
                        extern_abi: None,
                    },
                    tk_fn_keyword: Ident(
                        fn,
                    ),
                    name: Ident(
                        new,
                    ),
                    generic_params: None,
                    tk_params_parens: (),
                    params: [
                        Typed(
                            FnTypedParam {
                                attributes: [],
                                tk_mut: None,
                                name: Ident(
                                    i,
                                ),
                                tk_colon: Punct {
                                    char: ':',
                                    spacing: Alone,
                                },
                                ty: [
                                    i32,
                                ],
                            },
                        ),
                        Typed(
                            FnTypedParam {
                                attributes: [],
                                tk_mut: None,
                                name: Ident(
                                    b,
                                ),
                                tk_colon: Punct {
                                    char: ':',
                                    spacing: Alone,
                                },
                                ty: [
                                    bool,
                                ],
                            },
                        ),
                    ],
                    where_clause: None,
                    tk_return_arrow: Some(
                        [
                            Punct {
                                char: '-',
                                spacing: Joint,
                            },
                            Punct {
                                char: '>',
                                spacing: Alone,
                            },
                        ],
                    ),
                    return_ty: Some(
                        [
                            Self,
                        ],
                    ),
                    tk_semicolon: None,
                    body: Some(
                        Group {
                            delimiter: Brace,
                            stream: TokenStream [
                                Ident {
                                    sym: Self,
                                },
                                Group {
                                    delimiter: Brace,
                                    stream: TokenStream [],
                                },
                            ],
                        },
                    ),
                },
            ),
            AssocFunction(
                Function {
                    attributes: [
                        Attribute {
                            tk_hash: Punct {
                                char: '#',
                                spacing: Alone,
                            },
                            tk_brackets: [],
                            path: [
                                attr,
                            ],
                            value: Empty,
                        },
                    ],
                    vis_marker: None,
                    qualifiers: FnQualifiers {
                        tk_default: None,
                        tk_const: Some(
                            Ident(
                                const,
                            ),
                        ),
                        tk_async: None,
                        tk_unsafe: None,
                        tk_extern: None,
                        extern_abi: None,
                    },
                    tk_fn_keyword: Ident(
                        fn,
                    ),
                    name: Ident(
                        set_value,
                    ),
                    generic_params: None,
                    tk_params_parens: (),
                    params: [
                        Receiver(
                            FnReceiverParam {
                                attributes: [],
                                tk_ref: Some(
                                    Punct {
                                        char: '&',
                                        spacing: Alone,
                                    },
                                ),
                                lifetime: None,
                                tk_mut: Some(
                                    Ident(
                                        mut,
                                    ),
                                ),
                                tk_self: Ident(
                                    self,
                                ),
                            },
                        ),
                        Typed(
                            FnTypedParam {
                                attributes: [],
                                tk_mut: None,
                                name: Ident(
                                    s,
                                ),
                                tk_colon: Punct {
                                    char: ':',
                                    spacing: Alone,
                                },
                                ty: [
                                    String,
                                ],
                            },
                        ),
                    ],
                    where_clause: None,
                    tk_return_arrow: None,
                    return_ty: None,
                    tk_semicolon: None,
                    body: Some(
                        Group {
                            delimiter: Brace,
                            stream: TokenStream [],
                        },
                    ),
                },
            ),
            AssocConstant(
                Constant {
                    attributes: [],
                    vis_marker: None,
                    tk_const_or_static: Ident(
                        const,
                    ),
                    tk_mut: None,
                    name: Ident(
                        CONSTANT,
                    ),
                    tk_colon: Punct {
                        char: ':',
                        spacing: Alone,
                    },
                    ty: [
                        i8,
                    ],
                    tk_equals: Some(
                        Punct {
                            char: '=',
                            spacing: Alone,
                        },
                    ),
                    initializer: Some(
                        [
                            24,
                            ""+"",
                            7,
                        ],
                    ),
                    tk_semicolon: Punct {
                        char: ';',
                        spacing: Alone,
                    },
                },
            ),
            Macro(
                Macro {
                    attributes: [
                        Attribute {
                            tk_hash: Punct {
                                char: '#',
                                spacing: Alone,
                            },
                            tk_brackets: [],
                            path: [
                                clippy,
                                "":"",
                                "":"",
                                allow,
                            ],
                            value: Group(
                                [
                                    venial,
                                ],
                                (),
                            ),
                        },
                    ],
                    name: Ident(
                        fn_macro,
                    ),
                    tk_bang: Punct {
                        char: '!',
                        spacing: Alone,
                    },
                    tk_declared_name: None,
                    tk_braces_or_parens: (),
                    inner_tokens: [
                        Ident {
                            sym: MyTrait,
                        },
                    ],
                    tk_semicolon: Some(
                        Punct {
                            char: ';',
                            spacing: Alone,
                        },
                    ),
                },
            ),
            Macro(
                Macro {
                    attributes: [],
                    name: Ident(
                        block_macro,
                    ),
                    tk_bang: Punct {
                        char: '!',
                        spacing: Alone,
                    },
                    tk_declared_name: None,
                    tk_braces_or_parens: {},
                    inner_tokens: [
                        Ident {
                            sym: fn,
                        },
                        Ident {
                            sym: inner_fn,
                        },
                        Group {
                            delimiter: Parenthesis,
                            stream: TokenStream [],
                        },
                        Punct {
                            char: '-',
                            spacing: Joint,
                        },
                        Punct {
                            char: '>',
                            spacing: Alone,
                        },
                        Ident {
                            sym: bool,
                        },
                        Punct {
                            char: ';',
                            spacing: Alone,
                        },
                    ],
                    tk_semicolon: None,
                },
            ),
        ],
    },
)".
Proof. snapshot. Qed.

(** [parse_impl_trait_generic], src/tests.rs:1202-1216. *)
Example parse_impl_trait_generic : test_checked
"unsafe impl<'a, T, const N: i8> traits::MyTrait<T, N> for structs::MyStruct<'a, T> where T: Clone, { #[attr] pub(crate) const CONSTANT: i8 = N; }"
"Impl(
    Impl {
        attributes: [],
        tk_unsafe: Some(
            Ident(
                unsafe,
            ),
        ),
        tk_impl: Ident(
            impl,
        ),
        impl_generic_params: Some(
            [
                GenericParam {
                    tk_prefix: ""'"",
                    name: ""a"",
                    bound: None,
                },
                GenericParam {
                    name: ""T"",
                    bound: None,
                },
                GenericParam {
                    tk_prefix: ""const"",
                    name: ""N"",
                    bound: Some(
                        [
                            i8,
                        ],
                    ),
                },
            ],
        ),
        trait_ty: Some(
            [
                traits,
                "":"",
                "":"",
                MyTrait,
                ""<"",
                T,
                "","",
                N,
                "">"",
            ],
        ),
        tk_for: Some(
            Ident(
                for,
            ),
        ),
        self_ty: [
            structs,
            "":"",
            "":"",
            MyStruct,
            ""<"",
            ""'"",
            a,
            "","",
            T,
            "">"",
        ],
        where_clause: Some(
            [
                [
                    T,
                    "":"",
                    Clone,
                ],
            ],
        ),
        tk_braces: {},
        inner_attributes: [],
        body_items: [
            AssocConstant(
                Constant {
                    attributes: [
                        Attribute {
                            tk_hash: Punct {
                                char: '#',
                                spacing: Alone,
                            },
                            tk_brackets: [],
                            path: [
                                attr,
                            ],
                            value: Empty,
                        },
                    ],
                    vis_marker: Some(
                        pub(
                            crate,
                        ),
                    ),
                    tk_const_or_static: Ident(
                        const,
                    ),
                    tk_mut: None,
                    name: Ident(
                        CONSTANT,
                    ),
                    tk_colon: Punct {
                        char: ':',
                        spacing: Alone,
                    },
                    ty: [
                        i8,
                    ],
                    tk_equals: Some(
                        Punct {
                            char: '=',
                            spacing: Alone,
                        },
                    ),
                    initializer: Some(
                        [
                            N,
                        ],
                    ),
                    tk_semicolon: Punct {
                        char: ';',
                        spacing: Alone,
                    },
                },
            ),
        ],
    },
)".
Proof. snapshot. Qed.

(** [parse_type_simple], src/tests.rs:1222-1230. *)
Example parse_type_simple : test_checked
"type MyType = std::string::String;"
"TypeAlias(
    TypeAlias {
        attributes: [],
        vis_marker: None,
        tk_type: Ident(
            type,
        ),
        name: Ident(
            MyType,
        ),
        bound: None,
        tk_equals: Some(
            Punct {
                char: '=',
                spacing: Alone,
            },
        ),
        initializer_ty: Some(
            [
                std,
                "":"",
                "":"",
                string,
                "":"",
                "":"",
                String,
            ],
        ),
        tk_semicolon: Punct {
            char: ';',
            spacing: Alone,
        },
    },
)".
Proof. snapshot. Qed.

(** [parse_type_complex], src/tests.rs:1232-1241. *)
Example parse_type_complex : test_checked
"#[attribute] pub(crate) type MyType = some::module::OtherType<i32, 10>::AssocType<Item = char>;"
"TypeAlias(
    TypeAlias {
        attributes: [
            Attribute {
                tk_hash: Punct {
                    char: '#',
                    spacing: Alone,
                },
                tk_brackets: [],
                path: [
                    attribute,
                ],
                value: Empty,
            },
        ],
        vis_marker: Some(
            pub(
                crate,
            ),
        ),
        tk_type: Ident(
            type,
        ),
        name: Ident(
            MyType,
        ),
        bound: None,
        tk_equals: Some(
            Punct {
                char: '=',
                spacing: Alone,
            },
        ),
        initializer_ty: Some(
            [
                some,
                "":"",
                "":"",
                module,
                "":"",
                "":"",
                OtherType,
                ""<"",
                i32,
                "","",
                10,
                "">"",
                "":"",
                "":"",
                AssocType,
                ""<"",
                Item,
                ""="",
                char,
                "">"",
            ],
        ),
        tk_semicolon: Punct {
            char: ';',
            spacing: Alone,
        },
    },
)".
Proof. snapshot. Qed.

(** [parse_constant_simple], src/tests.rs:1247-1255. *)
Example parse_constant_simple : test_checked
"const CONSTANT: i32 = 20;"
"Constant(
    Constant {
        attributes: [],
        vis_marker: None,
        tk_const_or_static: Ident(
            const,
        ),
        tk_mut: None,
        name: Ident(
            CONSTANT,
        ),
        tk_colon: Punct {
            char: ':',
            spacing: Alone,
        },
        ty: [
            i32,
        ],
        tk_equals: Some(
            Punct {
                char: '=',
                spacing: Alone,
            },
        ),
        initializer: Some(
            [
                20,
            ],
        ),
        tk_semicolon: Punct {
            char: ';',
            spacing: Alone,
        },
    },
)".
Proof. snapshot. Qed.

(** [parse_constant_complex], src/tests.rs:1257-1266. *)
Example parse_constant_complex : test_checked
"#[attribute] pub(crate) const CONSTANT: some::complex::Type<'static, bool> = some::complex::Expr + 77;"
"Constant(
    Constant {
        attributes: [
            Attribute {
                tk_hash: Punct {
                    char: '#',
                    spacing: Alone,
                },
                tk_brackets: [],
                path: [
                    attribute,
                ],
                value: Empty,
            },
        ],
        vis_marker: Some(
            pub(
                crate,
            ),
        ),
        tk_const_or_static: Ident(
            const,
        ),
        tk_mut: None,
        name: Ident(
            CONSTANT,
        ),
        tk_colon: Punct {
            char: ':',
            spacing: Alone,
        },
        ty: [
            some,
            "":"",
            "":"",
            complex,
            "":"",
            "":"",
            Type,
            ""<"",
            ""'"",
            static,
            "","",
            bool,
            "">"",
        ],
        tk_equals: Some(
            Punct {
                char: '=',
                spacing: Alone,
            },
        ),
        initializer: Some(
            [
                some,
                "":"",
                "":"",
                complex,
                "":"",
                "":"",
                Expr,
                ""+"",
                77,
            ],
        ),
        tk_semicolon: Punct {
            char: ';',
            spacing: Alone,
        },
    },
)".
Proof. snapshot. Qed.

(** [parse_constant_expressionless], src/tests.rs:1269-1277. *)
Example parse_constant_expressionless : test_checked
"const CONSTANT: some::Type;"
"Constant(
    Constant {
        attributes: [],
        vis_marker: None,
        tk_const_or_static: Ident(
            const,
        ),
        tk_mut: None,
        name: Ident(
            CONSTANT,
        ),
        tk_colon: Punct {
            char: ':',
            spacing: Alone,
        },
        ty: [
            some,
            "":"",
            "":"",
            Type,
        ],
        tk_equals: None,
        initializer: None,
        tk_semicolon: Punct {
            char: ';',
            spacing: Alone,
        },
    },
)".
Proof. snapshot. Qed.

(** [parse_mod], src/tests.rs:1348-1403. *)
Example parse_mod : test_checked
"#[path = ""some/module""] mod one_module { #![allow(clippy::iter_with_drain)] use std::clone::Clone as Clown; use std::cell::{Cell, RefCell}; pub struct MyStruct { field: i32, } impl MyStruct {} impl MyTrait for MyStruct {} #[derive(Copy, Clone)] enum Enum { Variant, } fn f() -> bool { true } pub use crate::{A, self, b::c}; const C: i32 = -8 * 2; pub static MUTEX: std::sync::Mutex<i32> = std::sync::Mutex::new(0); type MyType = Rc<RefCell<MyStruct>>; mod nested_mod { fn g() {} } mod empty_mod {} pub(crate) mod foreign_mod; #[contain_it] unsafe mod hazard_mod {} decl_macro!(args, 32; + *); #[macro_export] macro_rules! stringificate { () => { ""<None>"" } ($item:item) => { stringify!($item) }; } }"
"Module(
    Module {
        attributes: [
            Attribute {
                tk_hash: Punct {
                    char: '#',
                    spacing: Alone,
                },
                tk_brackets: [],
                path: [
                    path,
                ],
                value: Equals(
                    [
                        ""some/module"",
                    ],
                    Punct {
                        char: '=',
                        spacing: Alone,
                    },
                ),
            },
        ],
        vis_marker: None,
        tk_unsafe: None,
        tk_mod: Ident(
            mod,
        ),
        name: Ident(
            one_module,
        ),
        tk_semicolon: None,
        tk_braces: Some(
            {},
        ),
        inner_attributes: [
            Attribute {
                tk_hash: Punct {
                    char: '#',
                    spacing: Alone,
                },
                tk_bang: Punct {
                    char: '!',
                    spacing: Alone,
                },
                tk_brackets: [],
                path: [
                    allow,
                ],
                value: Group(
                    [
                        clippy,
                        "":"",
                        "":"",
                        iter_with_drain,
                    ],
                    (),
                ),
            },
        ],
        members: [
            UseDeclaration(
                UseDeclaration {
                    attributes: [],
                    vis_marker: None,
                    tk_use: Ident(
                        use,
                    ),
                    import_tree: [
                        std,
                        "":"",
                        "":"",
                        clone,
                        "":"",
                        "":"",
                        Clone,
                        as,
                        Clown,
                    ],
                    tk_semicolon: Punct {
                        char: ';',
                        spacing: Alone,
                    },
                },
            ),
            UseDeclaration(
                UseDeclaration {
                    attributes: [],
                    vis_marker: None,
                    tk_use: Ident(
                        use,
                    ),
                    import_tree: [
                        std,
                        "":"",
                        "":"",
                        cell,
                        "":"",
                        "":"",
                        Group {
                            delimiter: Brace,
                            stream: TokenStream [
                                Ident {
                                    sym: Cell,
                                },
                                Punct {
                                    char: ',',
                                    spacing: Alone,
                                },
                                Ident {
                                    sym: RefCell,
                                },
                            ],
                        },
                    ],
                    tk_semicolon: Punct {
                        char: ';',
                        spacing: Alone,
                    },
                },
            ),
            Struct(
                Struct {
                    attributes: [],
                    vis_marker: Some(
                        pub,
                    ),
                    tk_struct: Ident(
                        struct,
                    ),
                    name: Ident(
                        MyStruct,
                    ),
                    generic_params: None,
                    where_clause: None,
                    fields: Named(
                        [
                            NamedField {
                                attributes: [],
                                vis_marker: None,
                                name: Ident(
                                    field,
                                ),
                                tk_colon: Punct {
                                    char: ':',
                                    spacing: Alone,
                                },
                                ty: [
                                    i32,
                                ],
                            },
                        ],
                    ),
                    tk_semicolon: None,
                },
            ),
            Impl(
                Impl {
                    attributes: [],
                    tk_unsafe: None,
                    tk_impl: Ident(
                        impl,
                    ),
                    impl_generic_params: None,
                    trait_ty: None,
                    tk_for: None,
                    self_ty: [
                        MyStruct,
                    ],
                    where_clause: None,
                    tk_braces: {},
                    inner_attributes: [],
                    body_items: [],
                },
            ),
            Impl(
                Impl {
                    attributes: [],
                    tk_unsafe: None,
                    tk_impl: Ident(
                        impl,
                    ),
                    impl_generic_params: None,
                    trait_ty: Some(
                        [
                            MyTrait,
                        ],
                    ),
                    tk_for: Some(
                        Ident(
                            for,
                        ),
                    ),
                    self_ty: [
                        MyStruct,
                    ],
                    where_clause: None,
                    tk_braces: {},
                    inner_attributes: [],
                    body_items: [],
                },
            ),
            Enum(
                Enum {
                    attributes: [
                        Attribute {
                            tk_hash: Punct {
                                char: '#',
                                spacing: Alone,
                            },
                            tk_brackets: [],
                            path: [
                                derive,
                            ],
                            value: Group(
                                [
                                    Copy,
                                    "","",
                                    Clone,
                                ],
                                (),
                            ),
                        },
                    ],
                    vis_marker: None,
                    tk_enum: Ident(
                        enum,
                    ),
                    name: Ident(
                        Enum,
                    ),
                    generic_params: None,
                    where_clauses: None,
                    variants: [
                        EnumVariant {
                            attributes: [],
                            vis_marker: None,
                            name: Ident(
                                Variant,
                            ),
                            fields: Unit,
                            value: None,
                        },
                    ],
                },
            ),
            Function(
                Function {
                    attributes: [],
                    vis_marker: None,
                    qualifiers: FnQualifiers {
                        tk_default: None,
                        tk_const: None,
                        tk_async: None,
                        tk_unsafe: None,
                        tk_extern: None,
                        extern_abi: None,
                    },
                    tk_fn_keyword: Ident(
                        fn,
                    ),
                    name: Ident(
                        f,
                    ),
                    generic_params: None,
                    tk_params_parens: (),
                    params: [],
                    where_clause: None,
                    tk_return_arrow: Some(
                        [
                            Punct {
                                char: '-',
                                spacing: Joint,
                            },
                            Punct {
                                char: '>',
                                spacing: Alone,
                            },
                        ],
                    ),
                    return_ty: Some(
                        [
                            bool,
                        ],
                    ),
                    tk_semicolon: None,
                    body: Some(
                        Group {
                            delimiter: Brace,
                            stream: TokenStream [
                                Ident {
                                    sym: true,
                                },
                            ],
                        },
                    ),
                },
            ),
            UseDeclaration(
                UseDeclaration {
                    attributes: [],
                    vis_marker: Some(
                        pub,
                    ),
                    tk_use: Ident(
                        use,
                    ),
                    import_tree: [
                        crate,
                        "":"",
                        "":"",
                        Group {
                            delimiter: Brace,
                            stream: TokenStream [
                                Ident {
                                    sym: A,
                                },
                                Punct {
                                    char: ',',
                                    spacing: Alone,
                                },
                                Ident {
                                    sym: self,
                                },
                                Punct {
                                    char: ',',
                                    spacing: Alone,
                                },
                                Ident {
                                    sym: b,
                                },
                                Punct {
                                    char: ':',
                                    spacing: Joint,
                                },
                                Punct {
                                    char: ':',
                                    spacing: Alone,
                                },
                                Ident {
                                    sym: c,
                                },
                            ],
                        },
                    ],
                    tk_semicolon: Punct {
                        char: ';',
                        spacing: Alone,
                    },
                },
            ),
            Constant(
                Constant {
                    attributes: [],
                    vis_marker: None,
                    tk_const_or_static: Ident(
                        const,
                    ),
                    tk_mut: None,
                    name: Ident(
                        C,
                    ),
                    tk_colon: Punct {
                        char: ':',
                        spacing: Alone,
                    },
                    ty: [
                        i32,
                    ],
                    tk_equals: Some(
                        Punct {
                            char: '=',
                            spacing: Alone,
                        },
                    ),
                    initializer: Some(
                        [
                            ""-"",
                            8,
                            ""*"",
                            2,
                        ],
                    ),
                    tk_semicolon: Punct {
                        char: ';',
                        spacing: Alone,
                    },
                },
            ),
            Constant(
                Constant {
                    attributes: [],
                    vis_marker: Some(
                        pub,
                    ),
                    tk_const_or_static: Ident(
                        static,
                    ),
                    tk_mut: None,
                    name: Ident(
                        MUTEX,
                    ),
                    tk_colon: Punct {
                        char: ':',
                        spacing: Alone,
                    },
                    ty: [
                        std,
                        "":"",
                        "":"",
                        sync,
                        "":"",
                        "":"",
                        Mutex,
                        ""<"",
                        i32,
                        "">"",
                    ],
                    tk_equals: Some(
                        Punct {
                            char: '=',
                            spacing: Alone,
                        },
                    ),
                    initializer: Some(
                        [
                            std,
                            "":"",
                            "":"",
                            sync,
                            "":"",
                            "":"",
                            Mutex,
                            "":"",
                            "":"",
                            new,
                            Group {
                                delimiter: Parenthesis,
                                stream: TokenStream [
                                    Literal {
                                        lit: 0,
                                    },
                                ],
                            },
                        ],
                    ),
                    tk_semicolon: Punct {
                        char: ';',
                        spacing: Alone,
                    },
                },
            ),
            TypeAlias(
                TypeAlias {
                    attributes: [],
                    vis_marker: None,
                    tk_type: Ident(
                        type,
                    ),
                    name: Ident(
                        MyType,
                    ),
                    bound: None,
                    tk_equals: Some(
                        Punct {
                            char: '=',
                            spacing: Alone,
                        },
                    ),
                    initializer_ty: Some(
                        [
                            Rc,
                            ""<"",
                            RefCell,
                            ""<"",
                            MyStruct,
                            "">"",
                            "">"",
                        ],
                    ),
                    tk_semicolon: Punct {
                        char: ';',
                        spacing: Alone,
                    },
                },
            ),
            Module(
                Module {
                    attributes: [],
                    vis_marker: None,
                    tk_unsafe: None,
                    tk_mod: Ident(
                        mod,
                    ),
                    name: Ident(
                        nested_mod,
                    ),
                    tk_semicolon: None,
                    tk_braces: Some(
                        {},
                    ),
                    inner_attributes: [],
                    members: [
                        Function(
                            Function {
                                attributes: [],
                                vis_marker: None,
                                qualifiers: FnQualifiers {
                                    tk_default: None,
                                    tk_const: None,
                                    tk_async: None,
                                    tk_unsafe: None,
                                    tk_extern: None,
                                    extern_abi: None,
                                },
                                tk_fn_keyword: Ident(
                                    fn,
                                ),
                                name: Ident(
                                    g,
                                ),
                                generic_params: None,
                                tk_params_parens: (),
                                params: [],
                                where_clause: None,
                                tk_return_arrow: None,
                                return_ty: None,
                                tk_semicolon: None,
                                body: Some(
                                    Group {
                                        delimiter: Brace,
                                        stream: TokenStream [],
                                    },
                                ),
                            },
                        ),
                    ],
                },
            ),
            Module(
                Module {
                    attributes: [],
                    vis_marker: None,
                    tk_unsafe: None,
                    tk_mod: Ident(
                        mod,
                    ),
                    name: Ident(
                        empty_mod,
                    ),
                    tk_semicolon: None,
                    tk_braces: Some(
                        {},
                    ),
                    inner_attributes: [],
                    members: [],
                },
            ),
            Module(
                Module {
                    attributes: [],
                    vis_marker: Some(
                        pub(
                            crate,
                        ),
                    ),
                    tk_unsafe: None,
                    tk_mod: Ident(
                        mod,
                    ),
                    name: Ident(
                        foreign_mod,
                    ),
                    tk_semicolon: Some(
                        Punct {
                            char: ';',
                            spacing: Alone,
                        },
                    ),
                    tk_braces: None,
                    inner_attributes: [],
                    members: [],
                },
            ),
            Module(
                Module {
                    attributes: [
                        Attribute {
                            tk_hash: Punct {
                                char: '#',
                                spacing: Alone,
                            },
                            tk_brackets: [],
                            path: [
                                contain_it,
                            ],
                            value: Empty,
                        },
                    ],
                    vis_marker: None,
                    tk_unsafe: Some(
                        Ident(
                            unsafe,
                        ),
                    ),
                    tk_mod: Ident(
                        mod,
                    ),
                    name: Ident(
                        hazard_mod,
                    ),
                    tk_semicolon: None,
                    tk_braces: Some(
                        {},
                    ),
                    inner_attributes: [],
                    members: [],
                },
            ),
            Macro(
                Macro {
                    attributes: [],
                    name: Ident(
                        decl_macro,
                    ),
                    tk_bang: Punct {
                        char: '!',
                        spacing: Alone,
                    },
                    tk_declared_name: None,
                    tk_braces_or_parens: (),
                    inner_tokens: [
                        Ident {
                            sym: args,
                        },
                        Punct {
                            char: ',',
                            spacing: Alone,
                        },
                        Literal {
                            lit: 32,
                        },
                        Punct {
                            char: ';',
                            spacing: Alone,
                        },
                        Punct {
                            char: '+',
                            spacing: Alone,
                        },
                        Punct {
                            char: '*',
                            spacing: Alone,
                        },
                    ],
                    tk_semicolon: Some(
                        Punct {
                            char: ';',
                            spacing: Alone,
                        },
                    ),
                },
            ),
            Macro(
                Macro {
                    attributes: [
                        Attribute {
                            tk_hash: Punct {
                                char: '#',
                                spacing: Alone,
                            },
                            tk_brackets: [],
                            path: [
                                macro_export,
                            ],
                            value: Empty,
                        },
                    ],
                    name: Ident(
                        macro_rules,
                    ),
                    tk_bang: Punct {
                        char: '!',
                        spacing: Alone,
                    },
                    tk_declared_name: Some(
                        Ident(
                            stringificate,
                        ),
                    ),
                    tk_braces_or_parens: {},
                    inner_tokens: [
                        Group {
                            delimiter: Parenthesis,
                            stream: TokenStream [],
                        },
                        Punct {
                            char: '=',
                            spacing: Joint,
                        },
                        Punct {
                            char: '>',
                            spacing: Alone,
                        },
                        Group {
                            delimiter: Brace,
                            stream: TokenStream [
                                Literal {
                                    lit: ""<None>"",
                                },
                            ],
                        },
                        Group {
                            delimiter: Parenthesis,
                            stream: TokenStream [
                                Punct {
                                    char: '$',
                                    spacing: Alone,
                                },
                                Ident {
                                    sym: item,
                                },
                                Punct {
                                    char: ':',
                                    spacing: Alone,
                                },
                                Ident {
                                    sym: item,
                                },
                            ],
                        },
                        Punct {
                            char: '=',
                            spacing: Joint,
                        },
                        Punct {
                            char: '>',
                            spacing: Alone,
                        },
                        Group {
                            delimiter: Brace,
                            stream: TokenStream [
                                Ident {
                                    sym: stringify,
                                },
                                Punct {
                                    char: '!',
                                    spacing: Alone,
                                },
                                Group {
                                    delimiter: Parenthesis,
                                    stream: TokenStream [
                                        Punct {
                                            char: '$',
                                            spacing: Alone,
                                        },
                                        Ident {
                                            sym: item,
                                        },
                                    ],
                                },
                            ],
                        },
                        Punct {
                            char: ';',
                            spacing: Alone,
                        },
                    ],
                    tk_semicolon: None,
                },
            ),
        ],
    },
)".
Proof. snapshot. Qed.

(** [parse_trait_simple], src/tests.rs:1409-1435. *)
Example parse_trait_simple : test_checked
"trait MyTrait { #![inner::attr] fn abstract(&self) -> i32; fn with_default() -> bool { true } const LONG_NAME: &'static str; const SHORT_NAME: char = 'T'; type AssocType: Bound; type TypeWithDefault = Rc<RefCell<MyStruct>>; decl_macro!(); python! { def hello(b): return ""hello world"" if b else ""bye world"" } }"
"Trait(
    Trait {
        attributes: [],
        vis_marker: None,
        tk_unsafe: None,
        tk_trait: Ident(
            trait,
        ),
        name: Ident(
            MyTrait,
        ),
        generic_params: None,
        bound: None,
        where_clause: None,
        tk_braces: {},
        inner_attributes: [
            Attribute {
                tk_hash: Punct {
                    char: '#',
                    spacing: Alone,
                },
                tk_bang: Punct {
                    char: '!',
                    spacing: Alone,
                },
                tk_brackets: [],
                path: [
                    inner,
                    "":"",
                    "":"",
                    attr,
                ],
                value: Empty,
            },
        ],
        body_items: [
            AssocFunction(
                Function {
                    attributes: [],
                    vis_marker: None,
                    qualifiers: FnQualifiers {
                        tk_default: None,
                        tk_const: None,
                        tk_async: None,
                        tk_unsafe: None,
                        tk_extern: None,
                        extern_abi: None,
                    },
                    tk_fn_keyword: Ident(
                        fn,
                    ),
                    name: Ident(
                        abstract,
                    ),
                    generic_params: None,
                    tk_params_parens: (),
                    params: [
                        Receiver(
                            FnReceiverParam {
                                attributes: [],
                                tk_ref: Some(
                                    Punct {
                                        char: '&',
                                        spacing: Alone,
                                    },
                                ),
                                lifetime: None,
                                tk_mut: None,
                                tk_self: Ident(
                                    self,
                                ),
                            },
                        ),
                    ],
                    where_clause: None,
                    tk_return_arrow: Some(
                        [
                            Punct {
                                char: '-',
                                spacing: Joint,
                            },
                            Punct {
                                char: '>',
                                spacing: Alone,
                            },
                        ],
                    ),
                    return_ty: Some(
                        [
                            i32,
                        ],
                    ),
                    tk_semicolon: Some(
                        Punct {
                            char: ';',
                            spacing: Alone,
                        },
                    ),
                    body: None,
                },
            ),
            AssocFunction(
                Function {
                    attributes: [],
                    vis_marker: None,
                    qualifiers: FnQualifiers {
                        tk_default: None,
                        tk_const: None,
                        tk_async: None,
                        tk_unsafe: None,
                        tk_extern: None,
                        extern_abi: None,
                    },
                    tk_fn_keyword: Ident(
                        fn,
                    ),
                    name: Ident(
                        with_default,
                    ),
                    generic_params: None,
                    tk_params_parens: (),
                    params: [],
                    where_clause: None,
                    tk_return_arrow: Some(
                        [
                            Punct {
                                char: '-',
                                spacing: Joint,
                            },
                            Punct {
                                char: '>',
                                spacing: Alone,
                            },
                        ],
                    ),
                    return_ty: Some(
                        [
                            bool,
                        ],
                    ),
                    tk_semicolon: None,
                    body: Some(
                        Group {
                            delimiter: Brace,
                            stream: TokenStream [
                                Ident {
                                    sym: true,
                                },
                            ],
                        },
                    ),
                },
            ),
            AssocConstant(
                Constant {
                    attributes: [],
                    vis_marker: None,
                    tk_const_or_static: Ident(
                        const,
                    ),
                    tk_mut: None,
                    name: Ident(
                        LONG_NAME,
                    ),
                    tk_colon: Punct {
                        char: ':',
                        spacing: Alone,
                    },
                    ty: [
                        ""&"",
                        ""'"",
                        static,
                        str,
                    ],
                    tk_equals: None,
                    initializer: None,
                    tk_semicolon: Punct {
                        char: ';',
                        spacing: Alone,
                    },
                },
            ),
            AssocConstant(
                Constant {
                    attributes: [],
                    vis_marker: None,
                    tk_const_or_static: Ident(
                        const,
                    ),
                    tk_mut: None,
                    name: Ident(
                        SHORT_NAME,
                    ),
                    tk_colon: Punct {
                        char: ':',
                        spacing: Alone,
                    },
                    ty: [
                        char,
                    ],
                    tk_equals: Some(
                        Punct {
                            char: '=',
                            spacing: Alone,
                        },
                    ),
                    initializer: Some(
                        [
                            'T',
                        ],
                    ),
                    tk_semicolon: Punct {
                        char: ';',
                        spacing: Alone,
                    },
                },
            ),
            AssocType(
                TypeAlias {
                    attributes: [],
                    vis_marker: None,
                    tk_type: Ident(
                        type,
                    ),
                    name: Ident(
                        AssocType,
                    ),
                    bound: Some(
                        [
                            Bound,
                        ],
                    ),
                    tk_equals: None,
                    initializer_ty: None,
                    tk_semicolon: Punct {
                        char: ';',
                        spacing: Alone,
                    },
                },
            ),
            AssocType(
                TypeAlias {
                    attributes: [],
                    vis_marker: None,
                    tk_type: Ident(
                        type,
                    ),
                    name: Ident(
                        TypeWithDefault,
                    ),
                    bound: None,
                    tk_equals: Some(
                        Punct {
                            char: '=',
                            spacing: Alone,
                        },
                    ),
                    initializer_ty: Some(
                        [
                            Rc,
                            ""<"",
                            RefCell,
                            ""<"",
                            MyStruct,
                            "">"",
                            "">"",
                        ],
                    ),
                    tk_semicolon: Punct {
                        char: ';',
                        spacing: Alone,
                    },
                },
            ),
            Macro(
                Macro {
                    attributes: [],
                    name: Ident(
                        decl_macro,
                    ),
                    tk_bang: Punct {
                        char: '!',
                        spacing: Alone,
                    },
                    tk_declared_name: None,
                    tk_braces_or_parens: (),
                    inner_tokens: [],
                    tk_semicolon: Some(
                        Punct {
                            char: ';',
                            spacing: Alone,
                        },
                    ),
                },
            ),
            Macro(
                Macro {
                    attributes: [],
                    name: Ident(
                        python,
                    ),
                    tk_bang: Punct {
                        char: '!',
                        spacing: Alone,
                    },
                    tk_declared_name: None,
                    tk_braces_or_parens: {},
                    inner_tokens: [
                        Ident {
                            sym: def,
                        },
                        Ident {
                            sym: hello,
                        },
                        Group {
                            delimiter: Parenthesis,
                            stream: TokenStream [
                                Ident {
                                    sym: b,
                                },
                            ],
                        },
                        Punct {
                            char: ':',
                            spacing: Alone,
                        },
                        Ident {
                            sym: return,
                        },
                        Literal {
                            lit: ""hello world"",
                        },
                        Ident {
                            sym: if,
                        },
                        Ident {
                            sym: b,
                        },
                        Ident {
                            sym: else,
                        },
                        Literal {
                            lit: ""bye world"",
                        },
                    ],
                    tk_semicolon: None,
                },
            ),
        ],
    },
)".
Proof. snapshot. Qed.

(** [parse_trait_decorated], src/tests.rs:1437-1448. *)
Example parse_trait_decorated : test_checked
"#[fancy::api] pub(super) unsafe trait MyTrait<'p, U, const N> : Supertrait where Self: Sized {}"
"Trait(
    Trait {
        attributes: [
            Attribute {
                tk_hash: Punct {
                    char: '#',
                    spacing: Alone,
                },
                tk_brackets: [],
                path: [
                    fancy,
                    "":"",
                    "":"",
                    api,
                ],
                value: Empty,
            },
        ],
        vis_marker: Some(
            pub(
                super,
            ),
        ),
        tk_unsafe: Some(
            Ident(
                unsafe,
            ),
        ),
        tk_trait: Ident(
            trait,
        ),
        name: Ident(
            MyTrait,
        ),
        generic_params: Some(
            [
                GenericParam {
                    tk_prefix: ""'"",
                    name: ""p"",
                    bound: None,
                },
                GenericParam {
                    name: ""U"",
                    bound: None,
                },
                GenericParam {
                    tk_prefix: ""const"",
                    name: ""N"",
                    bound: None,
                },
            ],
        ),
        bound: Some(
            [
                Supertrait,
            ],
        ),
        where_clause: Some(
            [
                [
                    Self,
                    "":"",
                    Sized,
                ],
            ],
        ),
        tk_braces: {},
        inner_attributes: [],
        body_items: [],
    },
)".
Proof. snapshot. Qed.

(** [parse_extern_block], src/tests.rs:1454-1476. *)
Example parse_extern_block : test_checked
"#[decorated] pub(crate) extern ""stdcall"" { #![allow(unused_variables)] some_macro!(); fn c_function(); static S: i32; }"
"ExternBlock(
    ExternBlock {
        attributes: [
            Attribute {
                tk_hash: Punct {
                    char: '#',
                    spacing: Alone,
                },
                tk_brackets: [],
                path: [
                    decorated,
                ],
                value: Empty,
            },
        ],
        vis_marker: Some(
            pub(
                crate,
            ),
        ),
        tk_unsafe: None,
        tk_extern: Ident(
            extern,
        ),
        extern_abi: Some(
            Literal {
                lit: ""stdcall"",
            },
        ),
        tk_braces: {},
        inner_attributes: [
            Attribute {
                tk_hash: Punct {
                    char: '#',
                    spacing: Alone,
                },
                tk_bang: Punct {
                    char: '!',
                    spacing: Alone,
                },
                tk_brackets: [],
                path: [
                    allow,
                ],
                value: Group(
                    [
                        unused_variables,
                    ],
                    (),
                ),
            },
        ],
        body_items: [
            Macro(
                Macro {
                    attributes: [],
                    name: Ident(
                        some_macro,
                    ),
                    tk_bang: Punct {
                        char: '!',
                        spacing: Alone,
                    },
                    tk_declared_name: None,
                    tk_braces_or_parens: (),
                    inner_tokens: [],
                    tk_semicolon: Some(
                        Punct {
                            char: ';',
                            spacing: Alone,
                        },
                    ),
                },
            ),
            AssocFunction(
                Function {
                    attributes: [],
                    vis_marker: None,
                    qualifiers: FnQualifiers {
                        tk_default: None,
                        tk_const: None,
                        tk_async: None,
                        tk_unsafe: None,
                        tk_extern: None,
                        extern_abi: None,
                    },
                    tk_fn_keyword: Ident(
                        fn,
                    ),
                    name: Ident(
                        c_function,
                    ),
                    generic_params: None,
                    tk_params_parens: (),
                    params: [],
                    where_clause: None,
                    tk_return_arrow: None,
                    return_ty: None,
                    tk_semicolon: Some(
                        Punct {
                            char: ';',
                            spacing: Alone,
                        },
                    ),
                    body: None,
                },
            ),
            AssocConstant(
                Constant {
                    attributes: [],
                    vis_marker: None,
                    tk_const_or_static: Ident(
                        static,
                    ),
                    tk_mut: None,
                    name: Ident(
                        S,
                    ),
                    tk_colon: Punct {
                        char: ':',
                        spacing: Alone,
                    },
                    ty: [
                        i32,
                    ],
                    tk_equals: None,
                    initializer: None,
                    tk_semicolon: Punct {
                        char: ';',
                        spacing: Alone,
                    },
                },
            ),
        ],
    },
)".
Proof. snapshot. Qed.

Example parse_extern_block_2 : test_checked
"unsafe extern {}"
"ExternBlock(
    ExternBlock {
        attributes: [],
        vis_marker: None,
        tk_unsafe: Some(
            Ident(
                unsafe,
            ),
        ),
        tk_extern: Ident(
            extern,
        ),
        extern_abi: None,
        tk_braces: {},
        inner_attributes: [],
        body_items: [],
    },
)".
Proof. snapshot. Qed.

(** [parse_extern_crate], src/tests.rs:1478-1498. *)
Example parse_extern_crate : test_checked
"extern crate std;"
"ExternCrate(
    ExternCrate {
        attributes: [],
        vis_marker: None,
        tk_extern: Ident(
            extern,
        ),
        tk_crate: Ident(
            crate,
        ),
        name: Ident(
            std,
        ),
        tk_as: None,
        alias: None,
        tk_underscore: None,
        tk_semicolon: Punct {
            char: ';',
            spacing: Alone,
        },
    },
)".
Proof. snapshot. Qed.

Example parse_extern_crate_2 : test_checked
"extern crate std as ruststd;"
"ExternCrate(
    ExternCrate {
        attributes: [],
        vis_marker: None,
        tk_extern: Ident(
            extern,
        ),
        tk_crate: Ident(
            crate,
        ),
        name: Ident(
            std,
        ),
        tk_as: Some(
            Ident(
                as,
            ),
        ),
        alias: Some(
            Ident(
                ruststd,
            ),
        ),
        tk_underscore: None,
        tk_semicolon: Punct {
            char: ';',
            spacing: Alone,
        },
    },
)".
Proof. snapshot. Qed.

Example parse_extern_crate_3 : test_checked
"extern crate self as _;"
"ExternCrate(
    ExternCrate {
        attributes: [],
        vis_marker: None,
        tk_extern: Ident(
            extern,
        ),
        tk_crate: Ident(
            crate,
        ),
        name: Ident(
            self,
        ),
        tk_as: Some(
            Ident(
                as,
            ),
        ),
        alias: Some(
            Ident(
                _,
            ),
        ),
        tk_underscore: None,
        tk_semicolon: Punct {
            char: ';',
            spacing: Alone,
        },
    },
)".
Proof. snapshot. Qed.

(** [parse_complex_attributes], src/tests.rs:341-356. *)
Example parse_complex_attributes : test_checked
"#[hello::world] #[hello = a + b] #[hello::world = a + b] #[hello(a b c)] #[hello::world(a b c)] pub struct Hello;"
"Struct(
    Struct {
        attributes: [
            Attribute {
                tk_hash: Punct {
                    char: '#',
                    spacing: Alone,
                },
                tk_brackets: [],
                path: [
                    hello,
                    "":"",
                    "":"",
                    world,
                ],
                value: Empty,
            },
            Attribute {
                tk_hash: Punct {
                    char: '#',
                    spacing: Alone,
                },
                tk_brackets: [],
                path: [
                    hello,
                ],
                value: Equals(
                    [
                        a,
                        ""+"",
                        b,
                    ],
                    Punct {
                        char: '=',
                        spacing: Alone,
                    },
                ),
            },
            Attribute {
                tk_hash: Punct {
                    char: '#',
                    spacing: Alone,
                },
                tk_brackets: [],
                path: [
                    hello,
                    "":"",
                    "":"",
                    world,
                ],
                value: Equals(
                    [
                        a,
                        ""+"",
                        b,
                    ],
                    Punct {
                        char: '=',
                        spacing: Alone,
                    },
                ),
            },
            Attribute {
                tk_hash: Punct {
                    char: '#',
                    spacing: Alone,
                },
                tk_brackets: [],
                path: [
                    hello,
                ],
                value: Group(
                    [
                        a,
                        b,
                        c,
                    ],
                    (),
                ),
            },
            Attribute {
                tk_hash: Punct {
                    char: '#',
                    spacing: Alone,
                },
                tk_brackets: [],
                path: [
                    hello,
                    "":"",
                    "":"",
                    world,
                ],
                value: Group(
                    [
                        a,
                        b,
                        c,
                    ],
                    (),
                ),
            },
        ],
        vis_marker: Some(
            pub,
        ),
        tk_struct: Ident(
            struct,
        ),
        name: Ident(
            Hello,
        ),
        generic_params: None,
        where_clause: None,
        fields: Unit,
        tk_semicolon: Some(
            Punct {
                char: ';',
                spacing: Alone,
            },
        ),
    },
)".
Proof. snapshot. Qed.
Example parse_complex_attributes_2_3 :
  match parse_item (lex "#[hello::world] #[hello = a + b] #[hello::world = a + b] #[hello(a b c)] #[hello::world(a b c)] pub struct Hello;") with
  | Ret (Ok i) =>
      match item_attributes i with
      | a0 :: a1 :: _ =>
          pretty (debug_opt debug_ident (get_single_path_segment a0)) = Ret "None"
          /\ pretty (debug_opt debug_ident (get_single_path_segment a1)) = Ret "Some(
    Ident(
        hello,
    ),
)"
      | _ => False
      end
  | _ => False
  end.
Proof. snapshot. Qed.

(** [parse_generic_args], src/tests.rs:538-545. *)
Example parse_generic_args :
  match consume_generic_args (lex "<'a, path::to::Type, 15, Item = i32, module::NestedType<another::Type>>") with
  | Ret (Some a, []) =>
      print_generic_args a = lex "<'a, path::to::Type, 15, Item = i32, module::NestedType<another::Type>>"
      /\ pretty (debug_generic_args a) = Ret
"GenericArgList {
    args: [
        Lifetime {
            lifetime: Lifetime {
                tk_apostrophe: Punct {
                    char: '\'',
                    spacing: Joint,
                },
                name: Ident(
                    a,
                ),
            },
        },
        TypeOrConst {
            expr: [
                path,
                "":"",
                "":"",
                to,
                "":"",
                "":"",
                Type,
            ],
        },
        TypeOrConst {
            expr: [
                15,
            ],
        },
        Binding {
            ident: Ident(
                Item,
            ),
            tk_equals: Punct {
                char: '=',
                spacing: Alone,
            },
            ty: [
                i32,
            ],
        },
        TypeOrConst {
            expr: [
                module,
                "":"",
                "":"",
                NestedType,
                ""<"",
                another,
                "":"",
                "":"",
                Type,
                "">"",
            ],
        },
    ],
}"
  | _ => False
  end.
Proof. snapshot. Qed.

(** [parse_generic_args_turbofish], src/tests.rs:547-554. *)
Example parse_generic_args_turbofish :
  match consume_generic_args (lex "::<>") with
  | Ret (Some a, []) =>
      print_generic_args a = lex "::<>"
      /\ pretty (debug_generic_args a) = Ret
"GenericArgList {
    tk_turbofish_colons: ""::"",
    args: [],
}"
  | _ => False
  end.
Proof. snapshot. Qed.

(** [parse_inline_generic_args], src/tests.rs:556-568. *)
Example parse_inline_generic_args :
  match parse_item (lex "struct Hello<'a: 'static, T, U: Clone, const N: usize> {}") with
  | Ret (Ok i) =>
      match item_generic_params i with
      | Some params =>
          pretty (debug_generic_params params) = Ret
"[
    GenericParam {
        tk_prefix: ""'"",
        name: ""a"",
        bound: Some(
            [
                ""'"",
                static,
            ],
        ),
    },
    GenericParam {
        name: ""T"",
        bound: None,
    },
    GenericParam {
        name: ""U"",
        bound: Some(
            [
                Clone,
            ],
        ),
    },
    GenericParam {
        tk_prefix: ""const"",
        name: ""N"",
        bound: Some(
            [
                usize,
            ],
        ),
    },
]"
          /\ (do a <- to_owned_args params ;; pretty (debug_generic_args a)) = Ret
"GenericArgList {
    args: [
        Lifetime {
            lifetime: Lifetime {
                tk_apostrophe: Punct {
                    char: '\'',
                    spacing: Joint,
                },
                name: Ident(
                    a,
                ),
            },
        },
        TypeOrConst {
            expr: [
                T,
            ],
        },
        TypeOrConst {
            expr: [
                U,
            ],
        },
        TypeOrConst {
            expr: [
                N,
            ],
        },
    ],
}"
      | None => False
      end
  | _ => False
  end.
Proof. snapshot. Qed.

(** [add_lifetime], src/tests.rs:983-1011. *)
Example add_lifetime :
  show_struct (do s <- parse_struct_declaration "struct Hello { a: A, b: B, }" ;; struct_with_param s (gp_lifetime "b"))
  = Ret "struct Hello < 'b > { a : A , b : B , }".
Proof. snapshot. Qed.
Example add_lifetime_2 :
  show_struct (do s <- parse_struct_declaration "struct Hello<A, B> { a: A, b: B, }" ;; struct_with_param s (gp_lifetime "b"))
  = Ret "struct Hello < 'b , A , B > { a : A , b : B , }".
Proof. snapshot. Qed.
Example add_lifetime_3 :
  show_struct (do s <- parse_struct_declaration "struct Hello<'a, A, B> { a: &'a A, b: B, }" ;; struct_with_param s (gp_lifetime "b"))
  = Ret "struct Hello < 'b , 'a , A , B > { a : & 'a A , b : B , }".
Proof. snapshot. Qed.

(** [add_bounded_lifetime], src/tests.rs:1013-1028. *)
Example add_bounded_lifetime :
  show_struct (do s <- parse_struct_declaration "struct Hello { a: A, b: B, }" ;; struct_with_param s (gp_bounded_lifetime "b" (lex "c + d")))
  = Ret "struct Hello < ' b : c + d > { a : A , b : B , }".
Proof. snapshot. Qed.

(** [add_ty_param], src/tests.rs:1030-1050. *)
Example add_ty_param :
  show_struct (do s <- parse_struct_declaration "struct Hello { a: A, b: B, }" ;; struct_with_param s (gp_ty "T"))
  = Ret "struct Hello < T > { a : A , b : B , }".
Proof. snapshot. Qed.
Example add_ty_param_2 :
  show_struct (do s <- parse_struct_declaration "struct Hello<A, B> { a: A, b: B, }" ;; struct_with_param s (gp_ty "T"))
  = Ret "struct Hello < A , B , T > { a : A , b : B , }".
Proof. snapshot. Qed.

(** [add_bounded_ty_param], src/tests.rs:1052-1067. *)
Example add_bounded_ty_param :
  show_struct (do s <- parse_struct_declaration "struct Hello { a: A, b: B, }" ;; struct_with_param s (gp_bounded_ty "T" (lex "Clone")))
  = Ret "struct Hello < T : Clone > { a : A , b : B , }".
Proof. snapshot. Qed.

(** [add_const_param], src/tests.rs:1069-1095. *)
Example add_const_param :
  show_struct (do s <- parse_struct_declaration "struct Hello { a: A, b: B, }" ;; struct_with_param s (gp_const_param "N" (lex "u32")))
  = Ret "struct Hello < const N : u32 > { a : A , b : B , }".
Proof. snapshot. Qed.
Example add_const_param_2 :
  show_struct (do s <- parse_struct_declaration "struct Hello<A, B> { a: A, b: B, }" ;; struct_with_param s (gp_const_param "N" (lex "u32")))
  = Ret "struct Hello < A , B , const N : u32 > { a : A , b : B , }".
Proof. snapshot. Qed.

(** [add_where_item], src/tests.rs:1097-1123. *)
Example add_where_item :
  show_struct (do s <- parse_struct_declaration "struct Hello { a: A, b: B, }" ;; do p <- where_predicate_parse (lex "Self: Sized") ;; Ret (struct_with_where s p))
  = Ret "struct Hello where Self : Sized { a : A , b : B , }".
Proof. snapshot. Qed.
Example add_where_item_2 :
  show_struct (do s <- parse_struct_declaration "struct Hello<A, B> where A: Clone, B: Clone, { a: A, b: B, }" ;; do p <- where_predicate_parse (lex "Self: Sized") ;; Ret (struct_with_where s p))
  = Ret "struct Hello < A , B > where A : Clone , B : Clone , Self : Sized { a : A , b : B , }".
Proof. snapshot. Qed.

(** [interpret_ty_expr_simple_as_path], src/tests.rs:1283-1293. *)
Example interpret_ty_expr_simple_as_path :
  match as_path (mkTypeExpr (lex "::path::to::Type")) with
  | Ret (Some p) => pretty (debug_path p) = Ret
"Path {
    segments: [
        PathSegment {
            tk_separator_colons: ""::"",
            ident: Ident(
                path,
            ),
        },
        PathSegment {
            tk_separator_colons: ""::"",
            ident: Ident(
                to,
            ),
        },
        PathSegment {
            tk_separator_colons: ""::"",
            ident: Ident(
                Type,
            ),
        },
    ],
}"
  | _ => False
  end.
Proof. snapshot. Qed.

(** [interpret_ty_expr_generic_as_path], src/tests.rs:1295-1306. *)
Example interpret_ty_expr_generic_as_path :
  match as_path (mkTypeExpr (lex "path::to::Type<'a, other::Arg, 36>::Turbofish::<>")) with
  | Ret (Some p) => pretty (debug_path p) = Ret
"Path {
    segments: [
        PathSegment {
            ident: Ident(
                path,
            ),
        },
        PathSegment {
            tk_separator_colons: ""::"",
            ident: Ident(
                to,
            ),
        },
        PathSegment {
            tk_separator_colons: ""::"",
            ident: Ident(
                Type,
            ),
            generic_args: GenericArgList {
                args: [
                    Lifetime {
                        lifetime: Lifetime {
                            tk_apostrophe: Punct {
                                char: '\'',
                                spacing: Joint,
                            },
                            name: Ident(
                                a,
                            ),
                        },
                    },
                    TypeOrConst {
                        expr: [
                            other,
                            "":"",
                            "":"",
                            Arg,
                        ],
                    },
                    TypeOrConst {
                        expr: [
                            36,
                        ],
                    },
                ],
            },
        },
        PathSegment {
            tk_separator_colons: ""::"",
            ident: Ident(
                Turbofish,
            ),
            generic_args: GenericArgList {
                tk_turbofish_colons: ""::"",
                args: [],
            },
        },
    ],
}"
  | _ => False
  end.
Proof. snapshot. Qed.

(** [interpret_ty_expr_invalid_as_path], src/tests.rs:1308-1317. *)
Example interpret_ty_expr_invalid_as_path : as_path (mkTypeExpr (lex "()")) = Ret None.
Proof. snapshot. Qed.

(** [interpret_ty_expr_from_declarative_macro], src/tests.rs:1319-1342. *)
Example interpret_ty_expr_from_declarative_macro :
  match parse_item (lex "impl Trait for" ++ [TGroup (mkGroup NoDelim (lex "path::to::Type") call_site)] ++ lex "{}") with
  | Ret (Ok (IImpl i)) =>
      match as_path (im_self i) with
      | Ret (Some p) => pretty (debug_path p) = Ret
"Path {
    segments: [
        PathSegment {
            ident: Ident(
                path,
            ),
        },
        PathSegment {
            tk_separator_colons: ""::"",
            ident: Ident(
                to,
            ),
        },
        PathSegment {
            tk_separator_colons: ""::"",
            ident: Ident(
                Type,
            ),
        },
    ],
}"
      | _ => False
      end
  | _ => False
  end.
Proof. snapshot. Qed.

