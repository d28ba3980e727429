(** Generated by tools/dsl_sources.py: the grammar files of /repo, verbatim. *)
From Verif Require Export Programs.
Open Scope string_scope.

(** parser/Grammar.dsl *)
Definition dsl_source : list N := bytes "<Alphabet_Upper> Inline = ['A'..'Z']; #We all love commments#
<Alphabet_Lower> Inline =['a'..'z'];
<Num> = [0x30..0x39];
<NumNoZero> = [0x31..0x39];
<HexVal>= [0x30..0x39]/[0x41..0x46];
<Spaces> Inline = '\n'/'\t'/'\r'/' ';
<Specials> Inline = !(<Alphabet_Upper>/<Alphabet_Lower>/<Num>/<Spaces>),[0x0..0xFF] ;
<ASCII> = [0x00..0xFF];
<Apostrophe> Inline = '""';
<QuotationMark> Inline = ''';
<Left_Angle_Bracket> Inline = '<';
<Right_Angle_Bracket> Inline = '>';
<Left_Bracket> Inline = '(';
<Right_Bracket> Inline = ')';
<Assignment> Inline = '=';
<End_Rule> Inline = ';';
<Ampersand> Inline = '&';
<Exclamation_Mark> Inline = '!';
<Plus> Inline = '+';
<Star> Inline = '*';
<Question_Mark> Inline = '?';
<Comma> Inline = ',';
<Newline> = '\n';
<Backslash> Inline = '/';

<Var_Name> Inline = (<Alphabet_Lower>/<Alphabet_Upper>),(<Alphabet_Lower>/<Alphabet_Upper>/'_')*;
<Var_Name_Decl> = <Left_Angle_Bracket>, <Var_Name>, <Right_Angle_Bracket>;
<Var_Name_Ref>= <Left_Angle_Bracket>, <Var_Name>, <Right_Angle_Bracket>;
<Hex> = '0', 'x', <HexVal>+; #Replace with custom code#
<Integer> = <NumNoZero>, <Num>*; #No negative values since that is meaningless in this context#
<OrderedChoiceMatchRange> = <Whitespace>, '[', <Whitespace>,(<Terminal>/<Integer>/<Hex>),'.', '.',(<Terminal>/<Integer>/<Hex>) ,<Whitespace>, ']', <Whitespace>;


<Subexpression> = <Left_Bracket>,<RHS>,<Right_Bracket>;
<Hooked_Call> = <Var_Name>, <Left_Bracket>,<RHS>,<Right_Bracket>; # Allows for handling context senstive grammars by calling out to handwritten code. # 
<Epsilon> = <QuotationMark>, <QuotationMark>;
<StringTerminal> = (<Apostrophe>, !<Apostrophe>, (<ASCII>, (!<Apostrophe>,<ASCII>)+), <Apostrophe>)/<Hex>/<Integer>; #Multibyte matches essentially#

<Terminal> = (<QuotationMark>,<ASCII>,<QuotationMark>)/(<QuotationMark>,'\',('n'/'r'/'t'),<QuotationMark>)/<Epsilon>;
<Nucleus> = (<OrderedChoiceMatchRange>/<Hooked_Call>/<Subexpression>/<Terminal>/<StringTerminal>/<Var_Name_Ref>), <Whitespace>;
<Atom> = (<And_Predicate>/<Not_Predicate>/<One_Or_More>/<Zero_Or_More>/<Optional>/<Nucleus>), <Whitespace>;

<And_Predicate> = <Ampersand>, <Nucleus>;
<Not_Predicate> = <Exclamation_Mark>, <Nucleus>;
<Sequence> = <Atom>, <Whitespace>, <Comma>, <Whitespace>, <Atom>, (<Comma>, <Whitespace>, <Atom>)*;
<Ordered_Choice> = <Atom>, <Whitespace>,<Backslash>, <Whitespace>,<Atom>, (<Whitespace>, <Backslash>, <Whitespace>, <Atom>)*;
<One_Or_More> = <Nucleus>, <Whitespace>, <Plus>;
<Zero_Or_More> = <Nucleus>, <Whitespace>, <Star>;
<Optional> = <Nucleus>, <Whitespace>, <Question_Mark>;

<Whitespace> Inline = (' '/'\n'/'\r'/'\t')*;
<RHS> = <Whitespace>, (<Sequence>/<Ordered_Choice>/<Atom>);
<LHS> = <Var_Name_Decl>, (<Whitespace>, <Semantic_Instructions>, <Whitespace>)?;
<Rule> = <LHS>, <Whitespace>, <Assignment>, <Whitespace>, <RHS>, <Whitespace>, <End_Rule>, <Whitespace>, <Comment>*;
<Grammar> = <Rule>+, <Whitespace>?;
#Lemme just check comments work# #Double up dem comments#
<Comment> = <Whitespace>, '#', (!'#',<ASCII>)*, '#', <Whitespace>;
<Semantic_Instructions> = <Inline>;
<Inline> = ""Inline""; #Comment#".

(** examples/example_1/example_1.dsl *)
Definition ex1_source : list N := bytes "<expr> = <addition>/<subtraction>/<integer>;
<addition> = <expr>, '+', <integer>;
<subtraction> = <expr>, '-', <integer>;
<onenine> Inline = ['1'..'9'];
<digit> Inline = ['0'..'9'];
<integer> = <onenine>, <digit>*;

<Grammar> = <expr>; #This is a
Multi line comment
So we can check output is correct # ".

(** examples/example_2/example_2.dsl *)
Definition ex2_source : list N := bytes "<A> = (<B>, 'a')/'a';
<B> = (<A>, 'b')/'b';
<Grammar> = <A>;".

(** examples/example_3_basic_maths/example_3_basic_maths.dsl *)
Definition ex3_source : list N := bytes "<onenine> Inline = ['1'..'9'];
<digit> Inline = ['0'..'9'];
<integer> = <sign>, ((<onenine>, <digit>+)/<digit>);

<number> = <integer>, <fraction>?, <exponent>?; 
<fraction> = ('.', <digit>+);
<exponent> = (('E'/'e'), <sign>, <digit>+);
<sign> = ('+'/'-')?;

<addition> = <expr>, '+', <term>;
<subtraction> = <expr>, '-', <term>;
<multiplication> = <term>, '*', <factor>;
<division> = <term>, '/', <factor>;
<parentheses> = '(', <expr>, ')';

<expr>   =  <addition>/<subtraction>/<term>;
<term>   =   <multiplication>/<division>/<factor>;
<factor> =   <parentheses>/<number>;
<Grammar> = <expr>;".

(** examples/example_4_full_maths/example_4_full_maths.dsl *)
Definition ex4_source : list N := bytes "<onenine> Inline = ['1'..'9'];
<digit> Inline = ['0'..'9'];
<integer> = <sign>, ((<onenine>, <digit>+)/<digit>);

<number> = <integer>, <fraction>?, <exponent>?; 
<fraction> = ('.', <digit>+);
<exponent> = (('E'/'e'), <sign>, <digit>+);
<sign> = ('+'/'-')?;

<addition> = <expr>, '+', <term>;
<subtraction> = <expr>, '-', <term>;
<multiplication> = <term>, '*', <power_expr>;
<division> = <term>, '/', <power_expr>;
<parentheses> = '(', <expr>, ')';
<power> = <factor>, '^', <power_expr>;

<expr>   =  <addition>/<subtraction>/<term>;
<term>   =   <multiplication>/<division>/<power_expr>;
<power_expr> = <power>/<factor>;
<factor> =   <parentheses>/<number>;
<Grammar> = <expr>;".

(** examples/example_5_lr_num/LR_num.dsl *)
Definition ex5_source : list N := bytes "<num> = [0x30..0x39];
<expr> = (<expr>, '-', <num>) / <num>; # Should match 0-0-0-0-0-0-0-0 etc #
<Grammar> = <expr>; ".

(** examples/example_6_term_and_fact/term_and_fact.dsl *)
Definition ex6_source : list N := bytes "<num> = [0x30..0x39];
<term> = (<term>, '+', <fact>)/(<term>, '-', <fact>)/<fact>;
<fact> = (<fact>, '*', <num>)/(<fact>, '/', <num>)/<num>;
<Grammar> = <term>; ".

(** examples/example_7_indirect_lr_num/LR_num_indirect.dsl *)
Definition ex7_source : list N := bytes "<num> = [0x30..0x39];
<intermediate> = <expr>;
<expr> = (<intermediate>, '-', <num>) / <num>; # Should match 0-0-0-0-0-0-0-0 etc #
<Grammar> = <expr>; ".

(** examples/example_8_indirect_lr_3_level/LR_num_indirect_3_level.dsl *)
Definition ex8_source : list N := bytes "<num> = [0x30..0x39];
<test_LR_num> = <num>;
<test_indirect_three_level_A> = (<test_indirect_three_level_B>, '-', <test_LR_num>) / <test_LR_num>;
<test_indirect_three_level_B> = <test_indirect_three_level_C>;
<test_indirect_three_level_C> = <test_indirect_three_level_A>;
<Grammar> = <test_indirect_three_level_A>;".

(** examples/example_9_indirect_lr_5_level/LR_num_indirect_5_level.dsl *)
Definition ex9_source : list N := bytes "<num> = [0x30..0x39];
<test_LR_num> = <num>;
<test_indirect_three_level_A> = (<test_indirect_three_level_B>, '-', <test_LR_num>) / <test_LR_num>;
<test_indirect_three_level_B> = <test_indirect_three_level_C>;
<test_indirect_three_level_C> = <test_indirect_three_level_D>;
<test_indirect_three_level_D> = <test_indirect_three_level_E>;
<test_indirect_three_level_E> = <test_indirect_three_level_A>;
<Grammar> = <test_indirect_three_level_A>;".

(** examples/example_10_basic_bench/example_10_basic_bench.dsl *)
Definition ex10_source : list N := bytes "<rr> = ('1', <rr>)/'1'; # rr ::= ""1"" <rr> / ""1"" #
<lr> = (<lr>, '1')/'1'; # lr ::= <lr> ""1"" / ""1"" #
<Grammar> = <rr>; #We do not use grammar for this benchmark but we need one for the generation to work. #".

(** examples/example_11_external_rule_call/example_11_external_rule_call.dsl *)
Definition ex11_source : list N := bytes "<Alphabet_Lower> Inline =['a'..'z'];
<unique_line_matcher> = unique_line_cache((<Alphabet_Lower>/' ')+, '\n'); # Trivial context sensitive grammar, any lower case line will be matched but only once. #
<Grammar> = (<unique_line_matcher>)+;
".

(** examples/json_parser/json.dsl *)
Definition json_source : list N := bytes "<Alphabet_Upper> Inline = ['A'..'Z'];
<Alphabet_Lower> Inline = ['a'..'z'];
<onenine> Inline = ['1'..'9'];
<digit> Inline = ['0'..'9'];
<hex> Inline = ['0'..'9']/['A'..'F'];
<Specials> Inline = !(<Alphabet_Upper>/<Alphabet_Lower>/<onenine>/<ws>), <ASCII>;
<ASCII> Inline = [0x00..0xFF];


<Grammar> = <json>; #Need a grammar rule for generated code to be correct# 
<json> = <element>;
<value> Inline = <object>/<array>/<sstring>/<number>/<ttrue>/<ffalse>/<null>;
<ttrue> = ""true"";
<ffalse> = ""false"";
<null> = ""null"";

<object> = '{', ((<member>, (',', <member>)*)/<ws>), '}';
<members> Inline = <member>, (',', <member>)*;
<member> = <ws>, <sstring>, <ws>, ':', <ws>, <element>, <ws>;
<array> = '[', (<elements>/<ws>), ']';
<elements> Inline = <element>, (',', <element>)*;
<element> Inline = <ws>, <value>, <ws>;
<sstring> = '""', (!('""'/('\', '\', <escape>)/'\'), <ASCII>)*, '""';
<character> = !('""'/('\', '\', <escape>)/'\'), <ASCII>; #Cannot handle UTF-8 yet so this isn't quite correct#
<escape> = ('\'/'b'/'f'/'n'/'r'/'t'/('u', <hex>, <hex>, <hex>, <hex>))?;
<integer> = '-'?, ((<onenine>, <digit>+)/<digit>);

<number> = <integer>, <fraction>?, <exponent>?;
<fraction> = ('.', <digit>+);
<exponent> = (('E'/'e'), <sign>, <digit>+);
<sign> = ('+'/'-')?;
<ws> Inline = ('\n'/'\t'/'\r'/' ')*; #Can't use code points yet#

<wsa> = 0x0020;
<wsb> = 0x000A;
<wsc> = 0x000D;
<wsd> = 0x0009;
".
