(** The snapshot tests of the repository (crates/preprocessor/tests/main.rs and
    tests/snapshots/*.snap), replayed on the model through the small lexer of PreLex.v. They are
    tests of the model, not properties: they show that the definitions of PreModel.v compute what
    the code computes. Insta ignores trailing newlines, so they are compared without them. *)
From Coq Require Import List ZArith Bool String Ascii.
From Verif Require Import PreTypes MacroModel EvalModel PreModel PreLex.
Import ListNotations.
Local Open Scope string_scope.

Definition snap_env : env :=
  Env (fun i m _ _ => (i, m, true)) (fun _ => None) (fun _ => None) (fun s => s) 0 false.

Definition preprocessed (s : string) : option string :=
  match preprocess snap_env 500 no_incs [] (lex_source s) with
  | FResult st => Some (join_lines (out st))
  | FError _ => Some s
  | _ => None
  end.

Fixpoint all_newlines (s : string) : bool :=
  match s with
  | EmptyString => true
  | String c tl => Ascii.eqb c "010"%char && all_newlines tl
  end.
Fixpoint trim_end (s : string) : string :=
  match s with
  | EmptyString => EmptyString
  | String c tl => if all_newlines s then EmptyString else String c (trim_end tl)
  end.
Definition snapshot (input expected : string) : Prop :=
  option_map trim_end (preprocessed input) = Some (trim_end expected).

(** main.rs, no_preprocessor_directives *)
Example snap_no_preprocessor_directives : snapshot
"
        int foo;
        int bar;
        "
"
        int foo;
        int bar;
        ".
Proof. vm_compute. reflexivity. Qed.

(** main.rs, if_directive_defined *)
Example snap_if_directive_defined : snapshot
"#define FOO
#if defined FOO
    int foo;
#endif"
"#define FOO

    int foo;".
Proof. vm_compute. reflexivity. Qed.

(** main.rs, if_directive_defined_complex_1 *)
Example snap_if_directive_defined_complex_1 : snapshot
"#define FOO
#if defined FOO && defined BAR
    int foo;
    int bar;
#endif"
"#define FOO".
Proof. vm_compute. reflexivity. Qed.

(** main.rs, if_directive_defined_complex_2 *)
Example snap_if_directive_defined_complex_2 : snapshot
"#define FOO
#define BAR
#if defined FOO && defined BAR
    int foo;
    int bar;
#endif"
"#define FOO
#define BAR

    int foo;
    int bar;".
Proof. vm_compute. reflexivity. Qed.

(** main.rs, if_directive_defined_complex_3 *)
Example snap_if_directive_defined_complex_3 : snapshot
"#define FOO
#define BAR
#if defined FOO
    int foo;
    #if defined BAR
    int bar;
    #endif
#endif"
"#define FOO
#define BAR

    int foo;

    int bar;".
Proof. vm_compute. reflexivity. Qed.

(** main.rs, if_directive_defined_complex_4 *)
Example snap_if_directive_defined_complex_4 : snapshot
"#define FOO
#if defined FOO
    int foo;
    #if defined BAZ
    int bar;
    #else
    int baz;
    #endif
#endif"
"#define FOO

    int foo;



    int baz;".
Proof. vm_compute. reflexivity. Qed.

(** main.rs, if_directive_defined_complex_5 *)
Example snap_if_directive_defined_complex_5 : snapshot
"#define FOO
#if defined FOO
int foo;
#else
int bar;
#endif"
"#define FOO

int foo;".
Proof. vm_compute. reflexivity. Qed.

(** main.rs, if_directive_defined_complex_6 *)
Example snap_if_directive_defined_complex_6 : snapshot
"#define FOO
#if defined BAR
int foo;
#else
int bar;
#endif"
"#define FOO



int bar;".
Proof. vm_compute. reflexivity. Qed.

(** main.rs, if_directive_defined_complex_7 *)
Example snap_if_directive_defined_complex_7 : snapshot
"#define FOO
#if defined FOO
public void OnPluginStart()
#else
#if 1==1
public void OnPluginStart(int args)
#else
int bar;
#endif
#endif
{
    int bar;
}"
"#define FOO

public void OnPluginStart()







{
    int bar;
}".
Proof. vm_compute. reflexivity. Qed.

(** main.rs, if_directive_defined_complex_8 *)
Example snap_if_directive_defined_complex_8 : snapshot
"#define FOO 1
#if defined FOO
int foo;
#elseif FOO == 1
int bar;
#endif"
"#define FOO 1

int foo;".
Proof. vm_compute. reflexivity. Qed.

(** main.rs, define_1 *)
Example snap_define_1 : snapshot
"#define FOO 1"
"#define FOO 1".
Proof. vm_compute. reflexivity. Qed.

(** main.rs, define_trailing_comment_1 *)
Example snap_define_trailing_comment_1 : snapshot
"#define FOO 1 /* comment */
int foo = 1;
"
"#define FOO 1 /* comment */
int foo = 1;".
Proof. vm_compute. reflexivity. Qed.

(** main.rs, if_directive_expansion_1 *)
Example snap_if_directive_expansion_1 : snapshot
"#define FOO 1
#if FOO
    int foo;
#endif"
"#define FOO 1

    int foo;".
Proof. vm_compute. reflexivity. Qed.

(** main.rs, if_directive_expansion_2 *)
Example snap_if_directive_expansion_2 : snapshot
"#define FOO 1
#if FOO == 1
    int foo;
#endif"
"#define FOO 1

    int foo;".
Proof. vm_compute. reflexivity. Qed.

(** main.rs, if_directive_expansion_3 *)
Example snap_if_directive_expansion_3 : snapshot
"#define FOO(%0,%1) %0 + %1
#define BAR(%0,%1) %0 + %1
#if FOO(1, BAR(2, 3 + 4)) == 10
#endif
"
"#define FOO(%0,%1) %0 + %1
#define BAR(%0,%1) %0 + %1".
Proof. vm_compute. reflexivity. Qed.

(** main.rs, if_directive_nested_expansion_1 *)
Example snap_if_directive_nested_expansion_1 : snapshot
"#define FOO BAR
#define BAR 1
#if FOO == 1
    int foo;
#endif"
"#define FOO BAR
#define BAR 1

    int foo;".
Proof. vm_compute. reflexivity. Qed.

(** main.rs, if_directive_nested_expansion_2 *)
Example snap_if_directive_nested_expansion_2 : snapshot
"#define FOO BAR + 4
#define BAR 1 + BAZ
#define BAZ 2 + 3
#if FOO == 10
    int foo;
#endif"
"#define FOO BAR + 4
#define BAR 1 + BAZ
#define BAZ 2 + 3

    int foo;".
Proof. vm_compute. reflexivity. Qed.

(** main.rs, if_directive_nested_expansion_infinite_loop_1 *)
Example snap_if_directive_nested_expansion_infinite_loop_1 : snapshot
"#define FOO BAR
#define BAR FOO
#if FOO == 1
    int foo;
#endif"
"#define FOO BAR
#define BAR FOO".
Proof. vm_compute. reflexivity. Qed.

(** main.rs, elseif_directive_expansion_1 *)
Example snap_elseif_directive_expansion_1 : snapshot
"#define FOO 1
#if FOO == 2
int foo;
#elseif FOO == 1
int bar;
#endif
"
"#define FOO 1



int bar;".
Proof. vm_compute. reflexivity. Qed.

(** main.rs, elseif_directive_expansion_2 *)
Example snap_elseif_directive_expansion_2 : snapshot
"#define FOO 1
#if FOO == 1
int foo;
#elseif FOO == 2
int bar;
#endif
"
"#define FOO 1

int foo;".
Proof. vm_compute. reflexivity. Qed.

(** main.rs, elseif_directive_expansion_3 *)
Example snap_elseif_directive_expansion_3 : snapshot
"#define FOO 1
#if FOO == 1
    #if FOO == 1
    int foo;
    #endif
#elseif FOO == 2
int bar;
#endif
"
"#define FOO 1


    int foo;".
Proof. vm_compute. reflexivity. Qed.

(** main.rs, elseif_directive_expansion_4 *)
Example snap_elseif_directive_expansion_4 : snapshot
"#define FOO 3
#if FOO == 1
int foo;
#elseif FOO == 2
int bar;
#else
int baz;
#endif
"
"#define FOO 3





int baz;".
Proof. vm_compute. reflexivity. Qed.

(** main.rs, elseif_directive_expansion_5 *)
Example snap_elseif_directive_expansion_5 : snapshot
"#define FOO 3
#if FOO == 1
#if FOO == 3
int foo;
#endif
#elseif FOO == 2
int bar;
#else
int baz;
#endif
"
"#define FOO 3







int baz;".
Proof. vm_compute. reflexivity. Qed.

(** main.rs, define_undef_1 *)
Example snap_define_undef_1 : snapshot
"#define FOO 1
#undef FOO
"
"#define FOO 1
#undef FOO".
Proof. vm_compute. reflexivity. Qed.

(** main.rs, define_expansion_1 *)
Example snap_define_expansion_1 : snapshot
"#define FOO 1
int foo = FOO;
"
"#define FOO 1
int foo = 1;".
Proof. vm_compute. reflexivity. Qed.

(** main.rs, define_expansion_2 *)
Example snap_define_expansion_2 : snapshot
"#define FOO ""test""
char foo[64] = FOO;
"
"#define FOO ""test""
char foo[64] = ""test"";".
Proof. vm_compute. reflexivity. Qed.

(** main.rs, define_expansion_comment_1 *)
Example snap_define_expansion_comment_1 : snapshot
"#define FOO 1 //comment
int foo = FOO;
"
"#define FOO 1 //comment
int foo = 1;".
Proof. vm_compute. reflexivity. Qed.

(** main.rs, define_expansion_comment_2 *)
Example snap_define_expansion_comment_2 : snapshot
"#define FOO 1 /* comment */
int foo = FOO;
"
"#define FOO 1 /* comment */
int foo = 1;".
Proof. vm_compute. reflexivity. Qed.

(** main.rs, define_expansion_comment_3 *)
Example snap_define_expansion_comment_3 : snapshot
"#define FOO 1 /* long\
comment */
int foo = FOO;
"
"#define FOO 1 /* long\
comment */
int foo = 1;".
Proof. vm_compute. reflexivity. Qed.

(** main.rs, define_expansion_comment_4 *)
Example snap_define_expansion_comment_4 : snapshot
"#define FOO 1 /* long\
comment */ + 2
int foo = FOO;
int bar;
"
"#define FOO 1 /* long\
comment */ + 2
int foo = 1 + 2;
int bar;".
Proof. vm_compute. reflexivity. Qed.

(** main.rs, define_expansion_comment_5 *)
Example snap_define_expansion_comment_5 : snapshot
"#define FOO 1 /* long\
comment */ + 2 // Line comment
int foo = FOO;
int bar;
"
"#define FOO 1 /* long\
comment */ + 2 // Line comment
int foo = 1 + 2;
int bar;".
Proof. vm_compute. reflexivity. Qed.

(** main.rs, define_expansion_line_continuation_1 *)
Example snap_define_expansion_line_continuation_1 : snapshot
"#define FOO ""test \
expansion""
char foo[64] = FOO;
"
"#define FOO ""test \
expansion""
char foo[64] = ""test expansion"";".
Proof. vm_compute. reflexivity. Qed.

(** main.rs, define_expansion_line_continuation_2 *)
Example snap_define_expansion_line_continuation_2 : snapshot
"#define FOO ""test \
expansion \
\
also""
char foo[64] = FOO;
"
"#define FOO ""test \
expansion \
\
also""
char foo[64] = ""test expansion also"";".
Proof. vm_compute. reflexivity. Qed.

(** main.rs, define_expansion_nested_1 *)
Example snap_define_expansion_nested_1 : snapshot
"#define FOO BAR +   2
#define BAR 1
int foo = FOO;
"
"#define FOO BAR +   2
#define BAR 1
int foo = 1 +   2;".
Proof. vm_compute. reflexivity. Qed.

(** main.rs, define_expansion_nested_2 *)
Example snap_define_expansion_nested_2 : snapshot
"#define FOO BAR + 3
#define BAR 1 + BAZ
#define BAZ 2
int foo = FOO;
"
"#define FOO BAR + 3
#define BAR 1 + BAZ
#define BAZ 2
int foo = 1 + 2 + 3;".
Proof. vm_compute. reflexivity. Qed.

(** main.rs, define_expansion_nested_3 *)
Example snap_define_expansion_nested_3 : snapshot
"#define FOO BAR + 3
#define BAR 1 + 2
int foo = FOO;
"
"#define FOO BAR + 3
#define BAR 1 + 2
int foo = 1 + 2 + 3;".
Proof. vm_compute. reflexivity. Qed.

(** main.rs, define_expansion_nested_4 *)
Example snap_define_expansion_nested_4 : snapshot
"#define FOO 1 + 2
#define BAR FOO + 3 + 4
int bar = BAR;
"
"#define FOO 1 + 2
#define BAR FOO + 3 + 4
int bar = 1 + 2 + 3 + 4;".
Proof. vm_compute. reflexivity. Qed.

(** main.rs, macro_expansion_1 *)
Example snap_macro_expansion_1 : snapshot
"#define FOO(%0,%1) %0 + %1
int foo = FOO(1, 2);
"
"#define FOO(%0,%1) %0 + %1
int foo = 1 + 2;".
Proof. vm_compute. reflexivity. Qed.

(** main.rs, macro_expansion_2 *)
Example snap_macro_expansion_2 : snapshot
"#define FOO(%0) %0 %%2
int foo = FOO(2);
"
"#define FOO(%0) %0 %%2
int foo = 2 %2;".
Proof. vm_compute. reflexivity. Qed.

(** main.rs, macro_expansion_3 *)
Example snap_macro_expansion_3 : snapshot
"#define FOO(%0,%1) %0 + %1
#define BAR(%0,%1) %0 + %1
int foo = FOO(1, BAR(2, 3 + 4));
"
"#define FOO(%0,%1) %0 + %1
#define BAR(%0,%1) %0 + %1
int foo = 1 + 2 + 3 + 4;".
Proof. vm_compute. reflexivity. Qed.

(** main.rs, macro_expansion_4 *)
Example snap_macro_expansion_4 : snapshot
"#define FOO(%1,%2) %1 + %2
int foo = FOO(1, 2);
"
"#define FOO(%1,%2) %1 + %2
int foo = 1 + 2;".
Proof. vm_compute. reflexivity. Qed.

(** main.rs, macro_expansion_5 *)
Example snap_macro_expansion_5 : snapshot
"#define FOO(%1) int %1
FOO(foo, bar);
"
"#define FOO(%1) int %1
int foo, bar;".
Proof. vm_compute. reflexivity. Qed.

(** main.rs, macro_expansion_6 *)
Example snap_macro_expansion_6 : snapshot
"#define GET_VALUE(%1,%2) \
    public %1 Get%2(){ \
        %1 i; \
        this.GetValue(""m_"" ... #%2, i); \
        return i;}
        
        GET_VALUE(void, Foo)"
"#define GET_VALUE(%1,%2) \
    public %1 Get%2(){ \
        %1 i; \
        this.GetValue(""m_"" ... #%2, i); \
        return i;}
        
    public void GetFoo(){        void i;        this.GetValue(        ""m_"" ...        ""Foo"", i);        return i;}".
Proof. vm_compute. reflexivity. Qed.

(** main.rs, macro_expansion_7 *)
Example snap_macro_expansion_7 : snapshot
"#define FOO(%0,%1) %0 + %1
#define BAR(%0,%1) 1 + FOO(%0, %1)
int foo = BAR(2, 3)
"
"#define FOO(%0,%1) %0 + %1
#define BAR(%0,%1) 1 + FOO(%0, %1)
int foo = 1 + 2 + 3".
Proof. vm_compute. reflexivity. Qed.

(** main.rs, macro_no_expansion_1 *)
Example snap_macro_no_expansion_1 : snapshot
"#define FOO(%1) #%1
public void OnPluginStart() {
    PrintToServer(FOO /*foo*/ (foo));
}
"
"#define FOO(%1) #%1
public void OnPluginStart() {
    PrintToServer(""foo"");
}".
Proof. vm_compute. reflexivity. Qed.

(** main.rs, macro_no_expansion_2 *)
Example snap_macro_no_expansion_2 : snapshot
"#define FOO(%1) #%1
public void OnPluginStart() {
    PrintToServer(FOO
        (foo));
}
"
"#define FOO(%1) #%1
public void OnPluginStart() {
    PrintToServer(FOO
        (foo));
}".
Proof. vm_compute. reflexivity. Qed.

(** main.rs, macro_no_expansion_3 *)
Example snap_macro_no_expansion_3 : snapshot
"#define FOO(%1) #%1
public void OnPluginStart() {
    PrintToServer(FOO);
}
"
"#define FOO(%1) #%1
public void OnPluginStart() {
    PrintToServer(FOO);
}".
Proof. vm_compute. reflexivity. Qed.

(** main.rs, macro_no_expansion_4 *)
Example snap_macro_no_expansion_4 : snapshot
"#define FOO(%1) %1
#define BAR(%1) %1
public void OnPluginStart() {
    PrintToServer(BAR(FOO));
}
"
"#define FOO(%1) %1
#define BAR(%1) %1
public void OnPluginStart() {
    PrintToServer(FOO);
}".
Proof. vm_compute. reflexivity. Qed.

(** main.rs, stringizing_1 *)
Example snap_stringizing_1 : snapshot
"#define FOO(%0) #%0
char foo[8] = FOO(foo);"
"#define FOO(%0) #%0
char foo[8] = ""foo"";".
Proof. vm_compute. reflexivity. Qed.

(** main.rs, stringizing_2 *)
Example snap_stringizing_2 : snapshot
"#define FOO(%0,%1) #%0 ... #%1
char foo[8] = FOO(foo, bar);"
"#define FOO(%0,%1) #%0 ... #%1
char foo[8] = ""foo"" ... ""bar"";".
Proof. vm_compute. reflexivity. Qed.

(** main.rs, stringizing_3 *)
Example snap_stringizing_3 : snapshot
"#define FOO(%0) #%0
char foo[8] = FOO(foo , bar);"
"#define FOO(%0) #%0
char foo[8] = ""foo , bar"";".
Proof. vm_compute. reflexivity. Qed.

(** main.rs, stringizing_4 *)
Example snap_stringizing_4 : snapshot
"#define DISPOSE_MEMBER(%1) \
    Handle m_h%1; \
    if(this.GetValue(""m_"" ... #%1, m_h%1)){ \
        delete m_h%1;}
void foo(){
    DISPOSE_MEMBER(Foo)
}"
"#define DISPOSE_MEMBER(%1) \
    Handle m_h%1; \
    if(this.GetValue(""m_"" ... #%1, m_h%1)){ \
        delete m_h%1;}
void foo(){
    Handle m_hFoo;    if(this.GetValue(    ""m_"" ...    ""Foo"", m_hFoo)){        delete m_hFoo;}
}".
Proof. vm_compute. reflexivity. Qed.

