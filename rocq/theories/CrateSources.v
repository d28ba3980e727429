(** Generated by tools/crate_sources.py: parser.rs and rules.rs of the
    generated crates of /repo, verbatim. *)
From Verif Require Export Programs.
Local Open Scope string_scope.

(** parser/src/parser.rs *)
Definition dsl_parser_rs_1 : list N := bytes "#![allow(non_camel_case_types)] // Generated Code kinda annoying to deal with so w/e
#![allow(unused_variables)] // Generated Code also, since everything passes stuff
#![allow(unused_imports)] // Generated Code also, since everything passes stuff
use crate::*;
use std::cell::RefCell;
#[allow(dead_code)]
pub fn alphabet_upper<T: Context>(
    user_state: &RefCell<UserState>,
    parent: Key,
    context: &RefCell<T>,
    source: &Source,
    position: u32,
) -> (bool, u32) {
    // We all love commments
    let closure_1 = _ordered_choice_match_range(65, 90);
    closure_1(parent, source, position)
}
#[allow(dead_code)]
pub fn alphabet_lower<T: Context>(
    user_state: &RefCell<UserState>,
    parent: Key,
    context: &RefCell<T>,
    source: &Source,
    position: u32,
) -> (bool, u32) {
    let closure_1 = _ordered_choice_match_range(97, 122);
    closure_1(parent, source, position)
}
#[allow(dead_code)]
pub fn num<T: Context>(
    user_state: &RefCell<UserState>,
    parent: Key,
    context: &RefCell<T>,
    source: &Source,
    position: u32,
) -> (bool, u32) {
    let closure_1 = _ordered_choice_match_range(48, 57);
    closure_1(parent, source, position)
}
#[allow(dead_code)]
pub fn numnozero<T: Context>(
    user_state: &RefCell<UserState>,
    parent: Key,
    context: &RefCell<T>,
    source: &Source,
    position: u32,
) -> (bool, u32) {
    let closure_1 = _ordered_choice_match_range(49, 57);
    closure_1(parent, source, position)
}
#[allow(dead_code)]
pub fn hexval<T: Context>(
    user_state: &RefCell<UserState>,
    parent: Key,
    context: &RefCell<T>,
    source: &Source,
    position: u32,
) -> (bool, u32) {
    let closure_1 = _ordered_choice_match_range(48, 57);
    let closure_2 = _ordered_choice_match_range(65, 70);
    let closure_3 = _ordered_choice(&closure_1, &closure_2);
    closure_3(parent, source, position)
}
#[allow(dead_code)]
pub fn spaces<T: Context>(
    user_state: &RefCell<UserState>,
    parent: Key,
    context: &RefCell<T>,
    source: &Source,
    position: u32,
) -> (bool, u32) {
    let closure_1 = _terminal(b'\n');
    let closure_2 = _terminal(b'\t');
    let closure_3 = _ordered_choice(&closure_1, &closure_2);
    let closure_4 = _terminal(b'\r');
    let closure_5 = _ordered_choice(&closure_3, &closure_4);
    let closure_6 = _terminal(b' ');
    let closure_7 = _ordered_choice(&closure_5, &closure_6);
    closure_7(parent, source, position)
}
#[allow(dead_code)]
pub fn specials<T: Context>(
    user_state: &RefCell<UserState>,
    parent: Key,
    context: &RefCell<T>,
    source: &Source,
    position: u32,
) -> (bool, u32) {
    let closure_1 = move |parent: Key, source: &Source, position: u32| {
        alphabet_upper(user_state, parent, context, source, position)
    };
    let closure_2 = move |parent: Key, source: &Source, position: u32| {
        alphabet_lower(user_state, parent, context, source, position)
    };
    let closure_3 = _ordered_choice(&closure_1, &closure_2);
    let closure_4 = _var_name(user_state, Rules::Num, context, num);
    let closure_5 = _ordered_choice(&closure_3, &closure_4);
    let closure_6 = move |parent: Key, source: &Source, position: u32| {
        spaces(user_state, parent, context, source, position)
    };
    let closure_7 = _ordered_choice(&closure_5, &closure_6);
    let closure_8 = _subexpression(&closure_7);
    let closure_9 = _not_predicate(&closure_8);
    let closure_10 = _ordered_choice_match_range(0, 255);
    let closure_11 = _sequence(&closure_9, &closure_10);
    closure_11(parent, source, position)
}
#[allow(dead_code)]
pub fn ascii<T: Context>(
    user_state: &RefCell<UserState>,
    parent: Key,
    context: &RefCell<T>,
    source: &Source,
    position: u32,
) -> (bool, u32) {
    let closure_1 = _ordered_choice_match_range(0, 255);
    closure_1(parent, source, position)
}
#[allow(dead_code)]
pub fn apostrophe<T: Context>(
    user_state: &RefCell<UserState>,
    parent: Key,
    context: &RefCell<T>,
    source: &Source,
    position: u32,
) -> (bool, u32) {
    let closure_1 = _terminal(b'""');
    closure_1(parent, source, position)
}
#[allow(dead_code)]
pub fn quotationmark<T: Context>(
    user_state: &RefCell<UserState>,
    parent: Key,
    context: &RefCell<T>,
    source: &Source,
    position: u32,
) -> (bool, u32) {
    let closure_1 = _terminal(b'\'');
    closure_1(parent, source, position)
}
#[allow(dead_code)]
pub fn left_angle_bracket<T: Context>(
    user_state: &RefCell<UserState>,
    parent: Key,
    context: &RefCell<T>,
    source: &Source,
    position: u32,
) -> (bool, u32) {
    let closure_1 = _terminal(b'<');
    closure_1(parent, source, position)
}
#[allow(dead_code)]
pub fn right_angle_bracket<T: Context>(
    user_state: &RefCell<UserState>,
    parent: Key,
    context: &RefCell<T>,
    source: &Source,
    position: u32,
) -> (bool, u32) {
    let closure_1 = _terminal(b'>');
    closure_1(parent, source, position)
}
#[allow(dead_code)]
pub fn left_bracket<T: Context>(
    user_state: &RefCell<UserState>,
    parent: Key,
    context: &RefCell<T>,
    source: &Source,
    position: u32,
) -> (bool, u32) {
    let closure_1 = _terminal(b'(');
    closure_1(parent, source, position)
}
#[allow(dead_code)]
pub fn right_bracket<T: Context>(
    user_state: &RefCell<UserState>,
    parent: Key,
    context: &RefCell<T>,
    source: &Source,
    position: u32,
) -> (bool, u32) {
    let closure_1 = _terminal(b')');
    closure_1(parent, source, position)
}
#[allow(dead_code)]
pub fn assignment<T: Context>(
    user_state: &RefCell<UserState>,
    parent: Key,
    context: &RefCell<T>,
    source: &Source,
    position: u32,
) -> (bool, u32) {
    let closure_1 = _terminal(b'=');
    closure_1(parent, source, position)
}
#[allow(dead_code)]
pub fn end_rule<T: Context>(
    user_state: &RefCell<UserState>,
    parent: Key,
    context: &RefCell<T>,
    source: &Source,
    position: u32,
) -> (bool, u32) {
    let closure_1 = _terminal(b';');
".
Definition dsl_parser_rs_2 : list N := bytes "    closure_1(parent, source, position)
}
#[allow(dead_code)]
pub fn ampersand<T: Context>(
    user_state: &RefCell<UserState>,
    parent: Key,
    context: &RefCell<T>,
    source: &Source,
    position: u32,
) -> (bool, u32) {
    let closure_1 = _terminal(b'&');
    closure_1(parent, source, position)
}
#[allow(dead_code)]
pub fn exclamation_mark<T: Context>(
    user_state: &RefCell<UserState>,
    parent: Key,
    context: &RefCell<T>,
    source: &Source,
    position: u32,
) -> (bool, u32) {
    let closure_1 = _terminal(b'!');
    closure_1(parent, source, position)
}
#[allow(dead_code)]
pub fn plus<T: Context>(
    user_state: &RefCell<UserState>,
    parent: Key,
    context: &RefCell<T>,
    source: &Source,
    position: u32,
) -> (bool, u32) {
    let closure_1 = _terminal(b'+');
    closure_1(parent, source, position)
}
#[allow(dead_code)]
pub fn star<T: Context>(
    user_state: &RefCell<UserState>,
    parent: Key,
    context: &RefCell<T>,
    source: &Source,
    position: u32,
) -> (bool, u32) {
    let closure_1 = _terminal(b'*');
    closure_1(parent, source, position)
}
#[allow(dead_code)]
pub fn question_mark<T: Context>(
    user_state: &RefCell<UserState>,
    parent: Key,
    context: &RefCell<T>,
    source: &Source,
    position: u32,
) -> (bool, u32) {
    let closure_1 = _terminal(b'?');
    closure_1(parent, source, position)
}
#[allow(dead_code)]
pub fn comma<T: Context>(
    user_state: &RefCell<UserState>,
    parent: Key,
    context: &RefCell<T>,
    source: &Source,
    position: u32,
) -> (bool, u32) {
    let closure_1 = _terminal(b',');
    closure_1(parent, source, position)
}
#[allow(dead_code)]
pub fn newline<T: Context>(
    user_state: &RefCell<UserState>,
    parent: Key,
    context: &RefCell<T>,
    source: &Source,
    position: u32,
) -> (bool, u32) {
    let closure_1 = _terminal(b'\n');
    closure_1(parent, source, position)
}
#[allow(dead_code)]
pub fn backslash<T: Context>(
    user_state: &RefCell<UserState>,
    parent: Key,
    context: &RefCell<T>,
    source: &Source,
    position: u32,
) -> (bool, u32) {
    let closure_1 = _terminal(b'/');
    closure_1(parent, source, position)
}
#[allow(dead_code)]
pub fn var_name<T: Context>(
    user_state: &RefCell<UserState>,
    parent: Key,
    context: &RefCell<T>,
    source: &Source,
    position: u32,
) -> (bool, u32) {
    let closure_1 = move |parent: Key, source: &Source, position: u32| {
        alphabet_lower(user_state, parent, context, source, position)
    };
    let closure_2 = move |parent: Key, source: &Source, position: u32| {
        alphabet_upper(user_state, parent, context, source, position)
    };
    let closure_3 = _ordered_choice(&closure_1, &closure_2);
    let closure_4 = _subexpression(&closure_3);
    let closure_5 = move |parent: Key, source: &Source, position: u32| {
        alphabet_lower(user_state, parent, context, source, position)
    };
    let closure_6 = move |parent: Key, source: &Source, position: u32| {
        alphabet_upper(user_state, parent, context, source, position)
    };
    let closure_7 = _ordered_choice(&closure_5, &closure_6);
    let closure_8 = _terminal(b'_');
    let closure_9 = _ordered_choice(&closure_7, &closure_8);
    let closure_10 = _subexpression(&closure_9);
    let closure_11 = _zero_or_more(&closure_10);
    let closure_12 = _sequence(&closure_4, &closure_11);
    closure_12(parent, source, position)
}
#[allow(dead_code)]
pub fn var_name_decl<T: Context>(
    user_state: &RefCell<UserState>,
    parent: Key,
    context: &RefCell<T>,
    source: &Source,
    position: u32,
) -> (bool, u32) {
    let closure_1 = move |parent: Key, source: &Source, position: u32| {
        left_angle_bracket(user_state, parent, context, source, position)
    };
    let closure_2 = move |parent: Key, source: &Source, position: u32| {
        var_name(user_state, parent, context, source, position)
    };
    let closure_3 = _sequence(&closure_1, &closure_2);
    let closure_4 = move |parent: Key, source: &Source, position: u32| {
        right_angle_bracket(user_state, parent, context, source, position)
    };
    let closure_5 = _sequence(&closure_3, &closure_4);
    closure_5(parent, source, position)
}
#[allow(dead_code)]
pub fn var_name_ref<T: Context>(
    user_state: &RefCell<UserState>,
    parent: Key,
    context: &RefCell<T>,
    source: &Source,
    position: u32,
) -> (bool, u32) {
    let closure_1 = move |parent: Key, source: &Source, position: u32| {
        left_angle_bracket(user_state, parent, context, source, position)
    };
    let closure_2 = move |parent: Key, source: &Source, position: u32| {
        var_name(user_state, parent, context, source, position)
    };
    let closure_3 = _sequence(&closure_1, &closure_2);
    let closure_4 = move |parent: Key, source: &Source, position: u32| {
        right_angle_bracket(user_state, parent, context, source, position)
    };
    let closure_5 = _sequence(&closure_3, &closure_4);
    closure_5(parent, source, position)
}
#[allow(dead_code)]
pub fn hex<T: Context>(
    user_state: &RefCell<UserState>,
    parent: Key,
    context: &RefCell<T>,
    source: &Source,
    position: u32,
) -> (bool, u32) {
    // Replace with custom code
    let closure_1 = _terminal(b'0');
    let closure_2 = _terminal(b'x');
    let closure_3 = _sequence(&closure_1, &closure_2);
    let closure_4 = _var_name(user_state, Rules::HexVal, context, hexval);
    let closure_5 = _one_or_more(&closure_4);
    let closure_6 = _sequence(&closure_3, &closure_5);
    closure_6(parent, source, position)
}
#[allow(dead_code)]
pub fn integer<T: Context>(
    user_state: &RefCell<UserState>,
    parent: Key,
    context: &RefCell<T>,
    source: &Source,
    position: u32,
) -> (bool, u32) {
    // No negative values since that is meaningless in this context
    let closure_1 = _var_name(user_state, Rules::NumNoZero, context, numnozero);
    let closure_2 = _var_name(user_state, Rules::Num, context, num);
".
Definition dsl_parser_rs_3 : list N := bytes "    let closure_3 = _zero_or_more(&closure_2);
    let closure_4 = _sequence(&closure_1, &closure_3);
    closure_4(parent, source, position)
}
#[allow(dead_code)]
pub fn orderedchoicematchrange<T: Context>(
    user_state: &RefCell<UserState>,
    parent: Key,
    context: &RefCell<T>,
    source: &Source,
    position: u32,
) -> (bool, u32) {
    let closure_1 = move |parent: Key, source: &Source, position: u32| {
        whitespace(user_state, parent, context, source, position)
    };
    let closure_2 = _terminal(b'[');
    let closure_3 = _sequence(&closure_1, &closure_2);
    let closure_4 = move |parent: Key, source: &Source, position: u32| {
        whitespace(user_state, parent, context, source, position)
    };
    let closure_5 = _sequence(&closure_3, &closure_4);
    let closure_6 = _var_name(user_state, Rules::Terminal, context, terminal);
    let closure_7 = _var_name(user_state, Rules::Integer, context, integer);
    let closure_8 = _ordered_choice(&closure_6, &closure_7);
    let closure_9 = _var_name(user_state, Rules::Hex, context, hex);
    let closure_10 = _ordered_choice(&closure_8, &closure_9);
    let closure_11 = _subexpression(&closure_10);
    let closure_12 = _sequence(&closure_5, &closure_11);
    let closure_13 = _terminal(b'.');
    let closure_14 = _sequence(&closure_12, &closure_13);
    let closure_15 = _terminal(b'.');
    let closure_16 = _sequence(&closure_14, &closure_15);
    let closure_17 = _var_name(user_state, Rules::Terminal, context, terminal);
    let closure_18 = _var_name(user_state, Rules::Integer, context, integer);
    let closure_19 = _ordered_choice(&closure_17, &closure_18);
    let closure_20 = _var_name(user_state, Rules::Hex, context, hex);
    let closure_21 = _ordered_choice(&closure_19, &closure_20);
    let closure_22 = _subexpression(&closure_21);
    let closure_23 = _sequence(&closure_16, &closure_22);
    let closure_24 = move |parent: Key, source: &Source, position: u32| {
        whitespace(user_state, parent, context, source, position)
    };
    let closure_25 = _sequence(&closure_23, &closure_24);
    let closure_26 = _terminal(b']');
    let closure_27 = _sequence(&closure_25, &closure_26);
    let closure_28 = move |parent: Key, source: &Source, position: u32| {
        whitespace(user_state, parent, context, source, position)
    };
    let closure_29 = _sequence(&closure_27, &closure_28);
    closure_29(parent, source, position)
}
#[allow(dead_code)]
pub fn subexpression<T: Context>(
    user_state: &RefCell<UserState>,
    parent: Key,
    context: &RefCell<T>,
    source: &Source,
    position: u32,
) -> (bool, u32) {
    let closure_1 = move |parent: Key, source: &Source, position: u32| {
        left_bracket(user_state, parent, context, source, position)
    };
    let closure_2 = _var_name(user_state, Rules::RHS, context, rhs);
    let closure_3 = _sequence(&closure_1, &closure_2);
    let closure_4 = move |parent: Key, source: &Source, position: u32| {
        right_bracket(user_state, parent, context, source, position)
    };
    let closure_5 = _sequence(&closure_3, &closure_4);
    closure_5(parent, source, position)
}
#[allow(dead_code)]
pub fn hooked_call<T: Context>(
    user_state: &RefCell<UserState>,
    parent: Key,
    context: &RefCell<T>,
    source: &Source,
    position: u32,
) -> (bool, u32) {
    //  Allows for handling context senstive grammars by calling out to handwritten code.
    let closure_1 = move |parent: Key, source: &Source, position: u32| {
        var_name(user_state, parent, context, source, position)
    };
    let closure_2 = move |parent: Key, source: &Source, position: u32| {
        left_bracket(user_state, parent, context, source, position)
    };
    let closure_3 = _sequence(&closure_1, &closure_2);
    let closure_4 = _var_name(user_state, Rules::RHS, context, rhs);
    let closure_5 = _sequence(&closure_3, &closure_4);
    let closure_6 = move |parent: Key, source: &Source, position: u32| {
        right_bracket(user_state, parent, context, source, position)
    };
    let closure_7 = _sequence(&closure_5, &closure_6);
    closure_7(parent, source, position)
}
#[allow(dead_code)]
pub fn epsilon<T: Context>(
    user_state: &RefCell<UserState>,
    parent: Key,
    context: &RefCell<T>,
    source: &Source,
    position: u32,
) -> (bool, u32) {
    let closure_1 = move |parent: Key, source: &Source, position: u32| {
        quotationmark(user_state, parent, context, source, position)
    };
    let closure_2 = move |parent: Key, source: &Source, position: u32| {
        quotationmark(user_state, parent, context, source, position)
    };
    let closure_3 = _sequence(&closure_1, &closure_2);
    closure_3(parent, source, position)
}
#[allow(dead_code)]
pub fn stringterminal<T: Context>(
    user_state: &RefCell<UserState>,
    parent: Key,
    context: &RefCell<T>,
    source: &Source,
    position: u32,
) -> (bool, u32) {
    // Multibyte matches essentially
    let closure_1 = move |parent: Key, source: &Source, position: u32| {
        apostrophe(user_state, parent, context, source, position)
    };
    let closure_2 = move |parent: Key, source: &Source, position: u32| {
        apostrophe(user_state, parent, context, source, position)
    };
    let closure_3 = _not_predicate(&closure_2);
    let closure_4 = _sequence(&closure_1, &closure_3);
    let closure_5 = _var_name(user_state, Rules::ASCII, context, ascii);
    let closure_6 = move |parent: Key, source: &Source, position: u32| {
        apostrophe(user_state, parent, context, source, position)
    };
    let closure_7 = _not_predicate(&closure_6);
    let closure_8 = _var_name(user_state, Rules::ASCII, context, ascii);
    let closure_9 = _sequence(&closure_7, &closure_8);
    let closure_10 = _subexpression(&closure_9);
    let closure_11 = _one_or_more(&closure_10);
    let closure_12 = _sequence(&closure_5, &closure_11);
    let closure_13 = _subexpression(&closure_12);
".
Definition dsl_parser_rs_4 : list N := bytes "    let closure_14 = _sequence(&closure_4, &closure_13);
    let closure_15 = move |parent: Key, source: &Source, position: u32| {
        apostrophe(user_state, parent, context, source, position)
    };
    let closure_16 = _sequence(&closure_14, &closure_15);
    let closure_17 = _subexpression(&closure_16);
    let closure_18 = _var_name(user_state, Rules::Hex, context, hex);
    let closure_19 = _ordered_choice(&closure_17, &closure_18);
    let closure_20 = _var_name(user_state, Rules::Integer, context, integer);
    let closure_21 = _ordered_choice(&closure_19, &closure_20);
    closure_21(parent, source, position)
}
#[allow(dead_code)]
pub fn terminal<T: Context>(
    user_state: &RefCell<UserState>,
    parent: Key,
    context: &RefCell<T>,
    source: &Source,
    position: u32,
) -> (bool, u32) {
    let closure_1 = move |parent: Key, source: &Source, position: u32| {
        quotationmark(user_state, parent, context, source, position)
    };
    let closure_2 = _var_name(user_state, Rules::ASCII, context, ascii);
    let closure_3 = _sequence(&closure_1, &closure_2);
    let closure_4 = move |parent: Key, source: &Source, position: u32| {
        quotationmark(user_state, parent, context, source, position)
    };
    let closure_5 = _sequence(&closure_3, &closure_4);
    let closure_6 = _subexpression(&closure_5);
    let closure_7 = move |parent: Key, source: &Source, position: u32| {
        quotationmark(user_state, parent, context, source, position)
    };
    let closure_8 = _terminal(b'\\');
    let closure_9 = _sequence(&closure_7, &closure_8);
    let closure_10 = _terminal(b'n');
    let closure_11 = _terminal(b'r');
    let closure_12 = _ordered_choice(&closure_10, &closure_11);
    let closure_13 = _terminal(b't');
    let closure_14 = _ordered_choice(&closure_12, &closure_13);
    let closure_15 = _subexpression(&closure_14);
    let closure_16 = _sequence(&closure_9, &closure_15);
    let closure_17 = move |parent: Key, source: &Source, position: u32| {
        quotationmark(user_state, parent, context, source, position)
    };
    let closure_18 = _sequence(&closure_16, &closure_17);
    let closure_19 = _subexpression(&closure_18);
    let closure_20 = _ordered_choice(&closure_6, &closure_19);
    let closure_21 = _var_name(user_state, Rules::Epsilon, context, epsilon);
    let closure_22 = _ordered_choice(&closure_20, &closure_21);
    closure_22(parent, source, position)
}
#[allow(dead_code)]
pub fn nucleus<T: Context>(
    user_state: &RefCell<UserState>,
    parent: Key,
    context: &RefCell<T>,
    source: &Source,
    position: u32,
) -> (bool, u32) {
    let closure_1 = _var_name(
        user_state,
        Rules::OrderedChoiceMatchRange,
        context,
        orderedchoicematchrange,
    );
    let closure_2 = _var_name(user_state, Rules::Hooked_Call, context, hooked_call);
    let closure_3 = _ordered_choice(&closure_1, &closure_2);
    let closure_4 = _var_name(user_state, Rules::Subexpression, context, subexpression);
    let closure_5 = _ordered_choice(&closure_3, &closure_4);
    let closure_6 = _var_name(user_state, Rules::Terminal, context, terminal);
    let closure_7 = _ordered_choice(&closure_5, &closure_6);
    let closure_8 = _var_name(user_state, Rules::StringTerminal, context, stringterminal);
    let closure_9 = _ordered_choice(&closure_7, &closure_8);
    let closure_10 = _var_name(user_state, Rules::Var_Name_Ref, context, var_name_ref);
    let closure_11 = _ordered_choice(&closure_9, &closure_10);
    let closure_12 = _subexpression(&closure_11);
    let closure_13 = move |parent: Key, source: &Source, position: u32| {
        whitespace(user_state, parent, context, source, position)
    };
    let closure_14 = _sequence(&closure_12, &closure_13);
    closure_14(parent, source, position)
}
#[allow(dead_code)]
pub fn atom<T: Context>(
    user_state: &RefCell<UserState>,
    parent: Key,
    context: &RefCell<T>,
    source: &Source,
    position: u32,
) -> (bool, u32) {
    let closure_1 = _var_name(user_state, Rules::And_Predicate, context, and_predicate);
    let closure_2 = _var_name(user_state, Rules::Not_Predicate, context, not_predicate);
    let closure_3 = _ordered_choice(&closure_1, &closure_2);
    let closure_4 = _var_name(user_state, Rules::One_Or_More, context, one_or_more);
    let closure_5 = _ordered_choice(&closure_3, &closure_4);
    let closure_6 = _var_name(user_state, Rules::Zero_Or_More, context, zero_or_more);
    let closure_7 = _ordered_choice(&closure_5, &closure_6);
    let closure_8 = _var_name(user_state, Rules::Optional, context, optional);
    let closure_9 = _ordered_choice(&closure_7, &closure_8);
    let closure_10 = _var_name(user_state, Rules::Nucleus, context, nucleus);
    let closure_11 = _ordered_choice(&closure_9, &closure_10);
    let closure_12 = _subexpression(&closure_11);
    let closure_13 = move |parent: Key, source: &Source, position: u32| {
        whitespace(user_state, parent, context, source, position)
    };
    let closure_14 = _sequence(&closure_12, &closure_13);
    closure_14(parent, source, position)
}
#[allow(dead_code)]
pub fn and_predicate<T: Context>(
    user_state: &RefCell<UserState>,
    parent: Key,
    context: &RefCell<T>,
    source: &Source,
    position: u32,
) -> (bool, u32) {
    let closure_1 = move |parent: Key, source: &Source, position: u32| {
        ampersand(user_state, parent, context, source, position)
    };
    let closure_2 = _var_name(user_state, Rules::Nucleus, context, nucleus);
    let closure_3 = _sequence(&closure_1, &closure_2);
    closure_3(parent, source, position)
}
#[allow(dead_code)]
pub fn not_predicate<T: Context>(
    user_state: &RefCell<UserState>,
    parent: Key,
    context: &RefCell<T>,
    source: &Source,
    position: u32,
) -> (bool, u32) {
    let closure_1 = move |parent: Key, source: &Source, position: u32| {
        exclamation_mark(user_state, parent, context, source, position)
    };
".
Definition dsl_parser_rs_5 : list N := bytes "    let closure_2 = _var_name(user_state, Rules::Nucleus, context, nucleus);
    let closure_3 = _sequence(&closure_1, &closure_2);
    closure_3(parent, source, position)
}
#[allow(dead_code)]
pub fn sequence<T: Context>(
    user_state: &RefCell<UserState>,
    parent: Key,
    context: &RefCell<T>,
    source: &Source,
    position: u32,
) -> (bool, u32) {
    let closure_1 = _var_name(user_state, Rules::Atom, context, atom);
    let closure_2 = move |parent: Key, source: &Source, position: u32| {
        whitespace(user_state, parent, context, source, position)
    };
    let closure_3 = _sequence(&closure_1, &closure_2);
    let closure_4 = move |parent: Key, source: &Source, position: u32| {
        comma(user_state, parent, context, source, position)
    };
    let closure_5 = _sequence(&closure_3, &closure_4);
    let closure_6 = move |parent: Key, source: &Source, position: u32| {
        whitespace(user_state, parent, context, source, position)
    };
    let closure_7 = _sequence(&closure_5, &closure_6);
    let closure_8 = _var_name(user_state, Rules::Atom, context, atom);
    let closure_9 = _sequence(&closure_7, &closure_8);
    let closure_10 = move |parent: Key, source: &Source, position: u32| {
        comma(user_state, parent, context, source, position)
    };
    let closure_11 = move |parent: Key, source: &Source, position: u32| {
        whitespace(user_state, parent, context, source, position)
    };
    let closure_12 = _sequence(&closure_10, &closure_11);
    let closure_13 = _var_name(user_state, Rules::Atom, context, atom);
    let closure_14 = _sequence(&closure_12, &closure_13);
    let closure_15 = _subexpression(&closure_14);
    let closure_16 = _zero_or_more(&closure_15);
    let closure_17 = _sequence(&closure_9, &closure_16);
    closure_17(parent, source, position)
}
#[allow(dead_code)]
pub fn ordered_choice<T: Context>(
    user_state: &RefCell<UserState>,
    parent: Key,
    context: &RefCell<T>,
    source: &Source,
    position: u32,
) -> (bool, u32) {
    let closure_1 = _var_name(user_state, Rules::Atom, context, atom);
    let closure_2 = move |parent: Key, source: &Source, position: u32| {
        whitespace(user_state, parent, context, source, position)
    };
    let closure_3 = _sequence(&closure_1, &closure_2);
    let closure_4 = move |parent: Key, source: &Source, position: u32| {
        backslash(user_state, parent, context, source, position)
    };
    let closure_5 = _sequence(&closure_3, &closure_4);
    let closure_6 = move |parent: Key, source: &Source, position: u32| {
        whitespace(user_state, parent, context, source, position)
    };
    let closure_7 = _sequence(&closure_5, &closure_6);
    let closure_8 = _var_name(user_state, Rules::Atom, context, atom);
    let closure_9 = _sequence(&closure_7, &closure_8);
    let closure_10 = move |parent: Key, source: &Source, position: u32| {
        whitespace(user_state, parent, context, source, position)
    };
    let closure_11 = move |parent: Key, source: &Source, position: u32| {
        backslash(user_state, parent, context, source, position)
    };
    let closure_12 = _sequence(&closure_10, &closure_11);
    let closure_13 = move |parent: Key, source: &Source, position: u32| {
        whitespace(user_state, parent, context, source, position)
    };
    let closure_14 = _sequence(&closure_12, &closure_13);
    let closure_15 = _var_name(user_state, Rules::Atom, context, atom);
    let closure_16 = _sequence(&closure_14, &closure_15);
    let closure_17 = _subexpression(&closure_16);
    let closure_18 = _zero_or_more(&closure_17);
    let closure_19 = _sequence(&closure_9, &closure_18);
    closure_19(parent, source, position)
}
#[allow(dead_code)]
pub fn one_or_more<T: Context>(
    user_state: &RefCell<UserState>,
    parent: Key,
    context: &RefCell<T>,
    source: &Source,
    position: u32,
) -> (bool, u32) {
    let closure_1 = _var_name(user_state, Rules::Nucleus, context, nucleus);
    let closure_2 = move |parent: Key, source: &Source, position: u32| {
        whitespace(user_state, parent, context, source, position)
    };
    let closure_3 = _sequence(&closure_1, &closure_2);
    let closure_4 = move |parent: Key, source: &Source, position: u32| {
        plus(user_state, parent, context, source, position)
    };
    let closure_5 = _sequence(&closure_3, &closure_4);
    closure_5(parent, source, position)
}
#[allow(dead_code)]
pub fn zero_or_more<T: Context>(
    user_state: &RefCell<UserState>,
    parent: Key,
    context: &RefCell<T>,
    source: &Source,
    position: u32,
) -> (bool, u32) {
    let closure_1 = _var_name(user_state, Rules::Nucleus, context, nucleus);
    let closure_2 = move |parent: Key, source: &Source, position: u32| {
        whitespace(user_state, parent, context, source, position)
    };
    let closure_3 = _sequence(&closure_1, &closure_2);
    let closure_4 = move |parent: Key, source: &Source, position: u32| {
        star(user_state, parent, context, source, position)
    };
    let closure_5 = _sequence(&closure_3, &closure_4);
    closure_5(parent, source, position)
}
#[allow(dead_code)]
pub fn optional<T: Context>(
    user_state: &RefCell<UserState>,
    parent: Key,
    context: &RefCell<T>,
    source: &Source,
    position: u32,
) -> (bool, u32) {
    let closure_1 = _var_name(user_state, Rules::Nucleus, context, nucleus);
    let closure_2 = move |parent: Key, source: &Source, position: u32| {
        whitespace(user_state, parent, context, source, position)
    };
    let closure_3 = _sequence(&closure_1, &closure_2);
    let closure_4 = move |parent: Key, source: &Source, position: u32| {
        question_mark(user_state, parent, context, source, position)
    };
    let closure_5 = _sequence(&closure_3, &closure_4);
    closure_5(parent, source, position)
}
#[allow(dead_code)]
pub fn whitespace<T: Context>(
    user_state: &RefCell<UserState>,
    parent: Key,
    context: &RefCell<T>,
    source: &Source,
".
Definition dsl_parser_rs_6 : list N := bytes "    position: u32,
) -> (bool, u32) {
    let closure_1 = _terminal(b' ');
    let closure_2 = _terminal(b'\n');
    let closure_3 = _ordered_choice(&closure_1, &closure_2);
    let closure_4 = _terminal(b'\r');
    let closure_5 = _ordered_choice(&closure_3, &closure_4);
    let closure_6 = _terminal(b'\t');
    let closure_7 = _ordered_choice(&closure_5, &closure_6);
    let closure_8 = _subexpression(&closure_7);
    let closure_9 = _zero_or_more(&closure_8);
    closure_9(parent, source, position)
}
#[allow(dead_code)]
pub fn rhs<T: Context>(
    user_state: &RefCell<UserState>,
    parent: Key,
    context: &RefCell<T>,
    source: &Source,
    position: u32,
) -> (bool, u32) {
    let closure_1 = move |parent: Key, source: &Source, position: u32| {
        whitespace(user_state, parent, context, source, position)
    };
    let closure_2 = _var_name(user_state, Rules::Sequence, context, sequence);
    let closure_3 = _var_name(user_state, Rules::Ordered_Choice, context, ordered_choice);
    let closure_4 = _ordered_choice(&closure_2, &closure_3);
    let closure_5 = _var_name(user_state, Rules::Atom, context, atom);
    let closure_6 = _ordered_choice(&closure_4, &closure_5);
    let closure_7 = _subexpression(&closure_6);
    let closure_8 = _sequence(&closure_1, &closure_7);
    closure_8(parent, source, position)
}
#[allow(dead_code)]
pub fn lhs<T: Context>(
    user_state: &RefCell<UserState>,
    parent: Key,
    context: &RefCell<T>,
    source: &Source,
    position: u32,
) -> (bool, u32) {
    let closure_1 = _var_name(user_state, Rules::Var_Name_Decl, context, var_name_decl);
    let closure_2 = move |parent: Key, source: &Source, position: u32| {
        whitespace(user_state, parent, context, source, position)
    };
    let closure_3 = _var_name(
        user_state,
        Rules::Semantic_Instructions,
        context,
        semantic_instructions,
    );
    let closure_4 = _sequence(&closure_2, &closure_3);
    let closure_5 = move |parent: Key, source: &Source, position: u32| {
        whitespace(user_state, parent, context, source, position)
    };
    let closure_6 = _sequence(&closure_4, &closure_5);
    let closure_7 = _subexpression(&closure_6);
    let closure_8 = _optional(&closure_7);
    let closure_9 = _sequence(&closure_1, &closure_8);
    closure_9(parent, source, position)
}
#[allow(dead_code)]
pub fn rule<T: Context>(
    user_state: &RefCell<UserState>,
    parent: Key,
    context: &RefCell<T>,
    source: &Source,
    position: u32,
) -> (bool, u32) {
    let closure_1 = _var_name(user_state, Rules::LHS, context, lhs);
    let closure_2 = move |parent: Key, source: &Source, position: u32| {
        whitespace(user_state, parent, context, source, position)
    };
    let closure_3 = _sequence(&closure_1, &closure_2);
    let closure_4 = move |parent: Key, source: &Source, position: u32| {
        assignment(user_state, parent, context, source, position)
    };
    let closure_5 = _sequence(&closure_3, &closure_4);
    let closure_6 = move |parent: Key, source: &Source, position: u32| {
        whitespace(user_state, parent, context, source, position)
    };
    let closure_7 = _sequence(&closure_5, &closure_6);
    let closure_8 = _var_name(user_state, Rules::RHS, context, rhs);
    let closure_9 = _sequence(&closure_7, &closure_8);
    let closure_10 = move |parent: Key, source: &Source, position: u32| {
        whitespace(user_state, parent, context, source, position)
    };
    let closure_11 = _sequence(&closure_9, &closure_10);
    let closure_12 = move |parent: Key, source: &Source, position: u32| {
        end_rule(user_state, parent, context, source, position)
    };
    let closure_13 = _sequence(&closure_11, &closure_12);
    let closure_14 = move |parent: Key, source: &Source, position: u32| {
        whitespace(user_state, parent, context, source, position)
    };
    let closure_15 = _sequence(&closure_13, &closure_14);
    let closure_16 = _var_name(user_state, Rules::Comment, context, comment);
    let closure_17 = _zero_or_more(&closure_16);
    let closure_18 = _sequence(&closure_15, &closure_17);
    closure_18(parent, source, position)
}
#[allow(dead_code)]
pub fn grammar<T: Context>(
    user_state: &RefCell<UserState>,
    parent: Key,
    context: &RefCell<T>,
    source: &Source,
    position: u32,
) -> (bool, u32) {
    // Double up dem comments
    let closure_1 = _var_name(user_state, Rules::Rule, context, rule);
    let closure_2 = _one_or_more(&closure_1);
    let closure_3 = move |parent: Key, source: &Source, position: u32| {
        whitespace(user_state, parent, context, source, position)
    };
    let closure_4 = _optional(&closure_3);
    let closure_5 = _sequence(&closure_2, &closure_4);
    closure_5(parent, source, position)
}
#[allow(dead_code)]
pub fn comment<T: Context>(
    user_state: &RefCell<UserState>,
    parent: Key,
    context: &RefCell<T>,
    source: &Source,
    position: u32,
) -> (bool, u32) {
    let closure_1 = move |parent: Key, source: &Source, position: u32| {
        whitespace(user_state, parent, context, source, position)
    };
    let closure_2 = _terminal(b'#');
    let closure_3 = _sequence(&closure_1, &closure_2);
    let closure_4 = _terminal(b'#');
    let closure_5 = _not_predicate(&closure_4);
    let closure_6 = _var_name(user_state, Rules::ASCII, context, ascii);
    let closure_7 = _sequence(&closure_5, &closure_6);
    let closure_8 = _subexpression(&closure_7);
    let closure_9 = _zero_or_more(&closure_8);
    let closure_10 = _sequence(&closure_3, &closure_9);
    let closure_11 = _terminal(b'#');
    let closure_12 = _sequence(&closure_10, &closure_11);
    let closure_13 = move |parent: Key, source: &Source, position: u32| {
        whitespace(user_state, parent, context, source, position)
    };
    let closure_14 = _sequence(&closure_12, &closure_13);
    closure_14(parent, source, position)
}
#[allow(dead_code)]
pub fn semantic_instructions<T: Context>(
".
Definition dsl_parser_rs_7 : list N := bytes "    user_state: &RefCell<UserState>,
    parent: Key,
    context: &RefCell<T>,
    source: &Source,
    position: u32,
) -> (bool, u32) {
    let closure_1 = _var_name(user_state, Rules::Inline, context, inline);
    closure_1(parent, source, position)
}
#[allow(dead_code)]
pub fn inline<T: Context>(
    user_state: &RefCell<UserState>,
    parent: Key,
    context: &RefCell<T>,
    source: &Source,
    position: u32,
) -> (bool, u32) {
    // Comment
    let closure_1 = _string_terminal_opt_ascii(b""Inline"");
    closure_1(parent, source, position)
}
".
Definition dsl_parser_rs : list N := (dsl_parser_rs_1 ++ dsl_parser_rs_2 ++ dsl_parser_rs_3 ++ dsl_parser_rs_4 ++ dsl_parser_rs_5 ++ dsl_parser_rs_6 ++ dsl_parser_rs_7)%list.

(** parser/src/rules.rs *)
Definition dsl_rules_rs_1 : list N := bytes "#![allow(non_camel_case_types)] // Again due to generation -> Might solve eventually
use num_derive::FromPrimitive;
impl From<u32> for Rules {
    fn from(i: u32) -> Rules {
        let element = num::FromPrimitive::from_u32(i);
        match element {
            Some(rule) => rule,
            None => panic!(""Not a valid Rule""),
        }
    }
}
#[allow(dead_code)]
pub static RULES_SIZE: u32 = 31;
#[allow(clippy::upper_case_acronyms)] // Again due to generation -> Might solve eventually
#[derive(PartialEq, Eq, Hash, FromPrimitive, Clone, Copy, Debug, Ord, PartialOrd)]

pub enum Rules {
    ASCII,
    And_Predicate,
    Atom,
    Comment,
    Epsilon,
    Grammar,
    Hex,
    HexVal,
    Hooked_Call,
    Inline,
    Integer,
    LHS,
    Newline,
    Not_Predicate,
    Nucleus,
    Num,
    NumNoZero,
    One_Or_More,
    Optional,
    OrderedChoiceMatchRange,
    Ordered_Choice,
    RHS,
    Rule,
    Semantic_Instructions,
    Sequence,
    StringTerminal,
    Subexpression,
    Terminal,
    Var_Name_Decl,
    Var_Name_Ref,
    Zero_Or_More,
}
".
Definition dsl_rules_rs : list N := (dsl_rules_rs_1)%list.

(** examples/example_1_parser/src/parser.rs *)
Definition ex1_parser_rs_1 : list N := bytes "#![allow(non_camel_case_types)] // Generated Code kinda annoying to deal with so w/e
#![allow(unused_variables)] // Generated Code also, since everything passes stuff
#![allow(unused_imports)] // Generated Code also, since everything passes stuff
use crate::*;
use std::cell::RefCell;
#[allow(dead_code)]
pub fn expr<T: Context>(
    user_state: &RefCell<UserState>,
    parent: Key,
    context: &RefCell<T>,
    source: &Source,
    position: u32,
) -> (bool, u32) {
    let involved_set: Vec<Rules> = [Rules::Addition, Rules::Expr, Rules::Subtraction].to_vec();
    let closure_1 = _var_name_indirect_left_recursion(
        user_state,
        &involved_set,
        Rules::Addition,
        context,
        addition,
    );
    let involved_set: Vec<Rules> = [Rules::Addition, Rules::Expr, Rules::Subtraction].to_vec();
    let closure_2 = _var_name_indirect_left_recursion(
        user_state,
        &involved_set,
        Rules::Subtraction,
        context,
        subtraction,
    );
    let closure_3 = _ordered_choice(&closure_1, &closure_2);
    let closure_4 = _var_name(user_state, Rules::Integer, context, integer);
    let closure_5 = _ordered_choice(&closure_3, &closure_4);
    closure_5(parent, source, position)
}
#[allow(dead_code)]
pub fn addition<T: Context>(
    user_state: &RefCell<UserState>,
    parent: Key,
    context: &RefCell<T>,
    source: &Source,
    position: u32,
) -> (bool, u32) {
    let involved_set: Vec<Rules> = [Rules::Addition, Rules::Expr, Rules::Subtraction].to_vec();
    let closure_1 =
        _var_name_indirect_left_recursion(user_state, &involved_set, Rules::Expr, context, expr);
    let closure_2 = _terminal(b'+');
    let closure_3 = _sequence(&closure_1, &closure_2);
    let closure_4 = _var_name(user_state, Rules::Integer, context, integer);
    let closure_5 = _sequence(&closure_3, &closure_4);
    closure_5(parent, source, position)
}
#[allow(dead_code)]
pub fn subtraction<T: Context>(
    user_state: &RefCell<UserState>,
    parent: Key,
    context: &RefCell<T>,
    source: &Source,
    position: u32,
) -> (bool, u32) {
    let involved_set: Vec<Rules> = [Rules::Addition, Rules::Expr, Rules::Subtraction].to_vec();
    let closure_1 =
        _var_name_indirect_left_recursion(user_state, &involved_set, Rules::Expr, context, expr);
    let closure_2 = _terminal(b'-');
    let closure_3 = _sequence(&closure_1, &closure_2);
    let closure_4 = _var_name(user_state, Rules::Integer, context, integer);
    let closure_5 = _sequence(&closure_3, &closure_4);
    closure_5(parent, source, position)
}
#[allow(dead_code)]
pub fn onenine<T: Context>(
    user_state: &RefCell<UserState>,
    parent: Key,
    context: &RefCell<T>,
    source: &Source,
    position: u32,
) -> (bool, u32) {
    let closure_1 = _ordered_choice_match_range(49, 57);
    closure_1(parent, source, position)
}
#[allow(dead_code)]
pub fn digit<T: Context>(
    user_state: &RefCell<UserState>,
    parent: Key,
    context: &RefCell<T>,
    source: &Source,
    position: u32,
) -> (bool, u32) {
    let closure_1 = _ordered_choice_match_range(48, 57);
    closure_1(parent, source, position)
}
#[allow(dead_code)]
pub fn integer<T: Context>(
    user_state: &RefCell<UserState>,
    parent: Key,
    context: &RefCell<T>,
    source: &Source,
    position: u32,
) -> (bool, u32) {
    let closure_1 = move |parent: Key, source: &Source, position: u32| {
        onenine(user_state, parent, context, source, position)
    };
    let closure_2 = move |parent: Key, source: &Source, position: u32| {
        digit(user_state, parent, context, source, position)
    };
    let closure_3 = _zero_or_more(&closure_2);
    let closure_4 = _sequence(&closure_1, &closure_3);
    closure_4(parent, source, position)
}
#[allow(dead_code)]
pub fn grammar<T: Context>(
    user_state: &RefCell<UserState>,
    parent: Key,
    context: &RefCell<T>,
    source: &Source,
    position: u32,
) -> (bool, u32) {
    // This is a
    // Multi line comment
    // So we can check output is correct

    let involved_set: Vec<Rules> = [Rules::Addition, Rules::Expr, Rules::Subtraction].to_vec();
    let closure_1 =
        _var_name_indirect_left_recursion(user_state, &involved_set, Rules::Expr, context, expr);
    closure_1(parent, source, position)
}
".
Definition ex1_parser_rs : list N := (ex1_parser_rs_1)%list.

(** examples/example_1_parser/src/rules.rs *)
Definition ex1_rules_rs_1 : list N := bytes "#![allow(non_camel_case_types)] // Again due to generation -> Might solve eventually
use num_derive::FromPrimitive;
impl From<u32> for Rules {
    fn from(i: u32) -> Rules {
        let element = num::FromPrimitive::from_u32(i);
        match element {
            Some(rule) => rule,
            None => panic!(""Not a valid Rule""),
        }
    }
}
#[allow(dead_code)]
pub static RULES_SIZE: u32 = 5;
#[allow(clippy::upper_case_acronyms)] // Again due to generation -> Might solve eventually
#[derive(PartialEq, Eq, Hash, FromPrimitive, Clone, Copy, Debug, Ord, PartialOrd)]

pub enum Rules {
    Grammar,
    Addition,
    Expr,
    Integer,
    Subtraction,
}
".
Definition ex1_rules_rs : list N := (ex1_rules_rs_1)%list.

(** examples/example_2_parser/src/parser.rs *)
Definition ex2_parser_rs_1 : list N := bytes "#![allow(non_camel_case_types)] // Generated Code kinda annoying to deal with so w/e
#![allow(unused_variables)] // Generated Code also, since everything passes stuff
#![allow(unused_imports)] // Generated Code also, since everything passes stuff
use crate::*;
use std::cell::RefCell;
#[allow(dead_code)]
pub fn a<T: Context>(
    user_state: &RefCell<UserState>,
    parent: Key,
    context: &RefCell<T>,
    source: &Source,
    position: u32,
) -> (bool, u32) {
    let involved_set: Vec<Rules> = [Rules::A, Rules::B].to_vec();
    let closure_1 =
        _var_name_indirect_left_recursion(user_state, &involved_set, Rules::B, context, b);
    let closure_2 = _terminal(b'a');
    let closure_3 = _sequence(&closure_1, &closure_2);
    let closure_4 = _subexpression(&closure_3);
    let closure_5 = _terminal(b'a');
    let closure_6 = _ordered_choice(&closure_4, &closure_5);
    closure_6(parent, source, position)
}
#[allow(dead_code)]
pub fn b<T: Context>(
    user_state: &RefCell<UserState>,
    parent: Key,
    context: &RefCell<T>,
    source: &Source,
    position: u32,
) -> (bool, u32) {
    let involved_set: Vec<Rules> = [Rules::A, Rules::B].to_vec();
    let closure_1 =
        _var_name_indirect_left_recursion(user_state, &involved_set, Rules::A, context, a);
    let closure_2 = _terminal(b'b');
    let closure_3 = _sequence(&closure_1, &closure_2);
    let closure_4 = _subexpression(&closure_3);
    let closure_5 = _terminal(b'b');
    let closure_6 = _ordered_choice(&closure_4, &closure_5);
    closure_6(parent, source, position)
}
#[allow(dead_code)]
pub fn grammar<T: Context>(
    user_state: &RefCell<UserState>,
    parent: Key,
    context: &RefCell<T>,
    source: &Source,
    position: u32,
) -> (bool, u32) {
    let involved_set: Vec<Rules> = [Rules::A, Rules::B].to_vec();
    let closure_1 =
        _var_name_indirect_left_recursion(user_state, &involved_set, Rules::A, context, a);
    closure_1(parent, source, position)
}
".
Definition ex2_parser_rs : list N := (ex2_parser_rs_1)%list.

(** examples/example_2_parser/src/rules.rs *)
Definition ex2_rules_rs_1 : list N := bytes "#![allow(non_camel_case_types)] // Again due to generation -> Might solve eventually
use num_derive::FromPrimitive;
impl From<u32> for Rules {
    fn from(i: u32) -> Rules {
        let element = num::FromPrimitive::from_u32(i);
        match element {
            Some(rule) => rule,
            None => panic!(""Not a valid Rule""),
        }
    }
}
#[allow(dead_code)]
pub static RULES_SIZE: u32 = 3;
#[allow(clippy::upper_case_acronyms)] // Again due to generation -> Might solve eventually
#[derive(PartialEq, Eq, Hash, FromPrimitive, Clone, Copy, Debug, Ord, PartialOrd)]

pub enum Rules {
    A,
    B,
    Grammar,
}
".
Definition ex2_rules_rs : list N := (ex2_rules_rs_1)%list.

(** examples/example_3_basic_maths_parser/src/parser.rs *)
Definition ex3_parser_rs_1 : list N := bytes "#![allow(non_camel_case_types)] // Generated Code kinda annoying to deal with so w/e
#![allow(unused_variables)] // Generated Code also, since everything passes stuff
#![allow(unused_imports)] // Generated Code also, since everything passes stuff
use crate::*;
use std::cell::RefCell;
#[allow(dead_code)]
pub fn onenine<T: Context>(
    user_state: &RefCell<UserState>,
    parent: Key,
    context: &RefCell<T>,
    source: &Source,
    position: u32,
) -> (bool, u32) {
    let closure_1 = _ordered_choice_match_range(49, 57);
    closure_1(parent, source, position)
}
#[allow(dead_code)]
pub fn digit<T: Context>(
    user_state: &RefCell<UserState>,
    parent: Key,
    context: &RefCell<T>,
    source: &Source,
    position: u32,
) -> (bool, u32) {
    let closure_1 = _ordered_choice_match_range(48, 57);
    closure_1(parent, source, position)
}
#[allow(dead_code)]
pub fn integer<T: Context>(
    user_state: &RefCell<UserState>,
    parent: Key,
    context: &RefCell<T>,
    source: &Source,
    position: u32,
) -> (bool, u32) {
    let closure_1 = _var_name(user_state, Rules::Sign, context, sign);
    let closure_2 = move |parent: Key, source: &Source, position: u32| {
        onenine(user_state, parent, context, source, position)
    };
    let closure_3 = move |parent: Key, source: &Source, position: u32| {
        digit(user_state, parent, context, source, position)
    };
    let closure_4 = _one_or_more(&closure_3);
    let closure_5 = _sequence(&closure_2, &closure_4);
    let closure_6 = _subexpression(&closure_5);
    let closure_7 = move |parent: Key, source: &Source, position: u32| {
        digit(user_state, parent, context, source, position)
    };
    let closure_8 = _ordered_choice(&closure_6, &closure_7);
    let closure_9 = _subexpression(&closure_8);
    let closure_10 = _sequence(&closure_1, &closure_9);
    closure_10(parent, source, position)
}
#[allow(dead_code)]
pub fn number<T: Context>(
    user_state: &RefCell<UserState>,
    parent: Key,
    context: &RefCell<T>,
    source: &Source,
    position: u32,
) -> (bool, u32) {
    let closure_1 = _var_name(user_state, Rules::Integer, context, integer);
    let closure_2 = _var_name(user_state, Rules::Fraction, context, fraction);
    let closure_3 = _optional(&closure_2);
    let closure_4 = _sequence(&closure_1, &closure_3);
    let closure_5 = _var_name(user_state, Rules::Exponent, context, exponent);
    let closure_6 = _optional(&closure_5);
    let closure_7 = _sequence(&closure_4, &closure_6);
    closure_7(parent, source, position)
}
#[allow(dead_code)]
pub fn fraction<T: Context>(
    user_state: &RefCell<UserState>,
    parent: Key,
    context: &RefCell<T>,
    source: &Source,
    position: u32,
) -> (bool, u32) {
    let closure_1 = _terminal(b'.');
    let closure_2 = move |parent: Key, source: &Source, position: u32| {
        digit(user_state, parent, context, source, position)
    };
    let closure_3 = _one_or_more(&closure_2);
    let closure_4 = _sequence(&closure_1, &closure_3);
    let closure_5 = _subexpression(&closure_4);
    closure_5(parent, source, position)
}
#[allow(dead_code)]
pub fn exponent<T: Context>(
    user_state: &RefCell<UserState>,
    parent: Key,
    context: &RefCell<T>,
    source: &Source,
    position: u32,
) -> (bool, u32) {
    let closure_1 = _terminal(b'E');
    let closure_2 = _terminal(b'e');
    let closure_3 = _ordered_choice(&closure_1, &closure_2);
    let closure_4 = _subexpression(&closure_3);
    let closure_5 = _var_name(user_state, Rules::Sign, context, sign);
    let closure_6 = _sequence(&closure_4, &closure_5);
    let closure_7 = move |parent: Key, source: &Source, position: u32| {
        digit(user_state, parent, context, source, position)
    };
    let closure_8 = _one_or_more(&closure_7);
    let closure_9 = _sequence(&closure_6, &closure_8);
    let closure_10 = _subexpression(&closure_9);
    closure_10(parent, source, position)
}
#[allow(dead_code)]
pub fn sign<T: Context>(
    user_state: &RefCell<UserState>,
    parent: Key,
    context: &RefCell<T>,
    source: &Source,
    position: u32,
) -> (bool, u32) {
    let closure_1 = _terminal(b'+');
    let closure_2 = _terminal(b'-');
    let closure_3 = _ordered_choice(&closure_1, &closure_2);
    let closure_4 = _subexpression(&closure_3);
    let closure_5 = _optional(&closure_4);
    closure_5(parent, source, position)
}
#[allow(dead_code)]
pub fn addition<T: Context>(
    user_state: &RefCell<UserState>,
    parent: Key,
    context: &RefCell<T>,
    source: &Source,
    position: u32,
) -> (bool, u32) {
    let involved_set: Vec<Rules> = [Rules::Addition, Rules::Expr, Rules::Subtraction].to_vec();
    let closure_1 =
        _var_name_indirect_left_recursion(user_state, &involved_set, Rules::Expr, context, expr);
    let closure_2 = _terminal(b'+');
    let closure_3 = _sequence(&closure_1, &closure_2);
    let involved_set: Vec<Rules> = [Rules::Division, Rules::Multiplication, Rules::Term].to_vec();
    let closure_4 =
        _var_name_indirect_left_recursion(user_state, &involved_set, Rules::Term, context, term);
    let closure_5 = _sequence(&closure_3, &closure_4);
    closure_5(parent, source, position)
}
#[allow(dead_code)]
pub fn subtraction<T: Context>(
    user_state: &RefCell<UserState>,
    parent: Key,
    context: &RefCell<T>,
    source: &Source,
    position: u32,
) -> (bool, u32) {
    let involved_set: Vec<Rules> = [Rules::Addition, Rules::Expr, Rules::Subtraction].to_vec();
    let closure_1 =
        _var_name_indirect_left_recursion(user_state, &involved_set, Rules::Expr, context, expr);
    let closure_2 = _terminal(b'-');
    let closure_3 = _sequence(&closure_1, &closure_2);
    let involved_set: Vec<Rules> = [Rules::Division, Rules::Multiplication, Rules::Term].to_vec();
    let closure_4 =
        _var_name_indirect_left_recursion(user_state, &involved_set, Rules::Term, context, term);
    let closure_5 = _sequence(&closure_3, &closure_4);
".
Definition ex3_parser_rs_2 : list N := bytes "    closure_5(parent, source, position)
}
#[allow(dead_code)]
pub fn multiplication<T: Context>(
    user_state: &RefCell<UserState>,
    parent: Key,
    context: &RefCell<T>,
    source: &Source,
    position: u32,
) -> (bool, u32) {
    let involved_set: Vec<Rules> = [Rules::Division, Rules::Multiplication, Rules::Term].to_vec();
    let closure_1 =
        _var_name_indirect_left_recursion(user_state, &involved_set, Rules::Term, context, term);
    let closure_2 = _terminal(b'*');
    let closure_3 = _sequence(&closure_1, &closure_2);
    let closure_4 = _var_name(user_state, Rules::Factor, context, factor);
    let closure_5 = _sequence(&closure_3, &closure_4);
    closure_5(parent, source, position)
}
#[allow(dead_code)]
pub fn division<T: Context>(
    user_state: &RefCell<UserState>,
    parent: Key,
    context: &RefCell<T>,
    source: &Source,
    position: u32,
) -> (bool, u32) {
    let involved_set: Vec<Rules> = [Rules::Division, Rules::Multiplication, Rules::Term].to_vec();
    let closure_1 =
        _var_name_indirect_left_recursion(user_state, &involved_set, Rules::Term, context, term);
    let closure_2 = _terminal(b'/');
    let closure_3 = _sequence(&closure_1, &closure_2);
    let closure_4 = _var_name(user_state, Rules::Factor, context, factor);
    let closure_5 = _sequence(&closure_3, &closure_4);
    closure_5(parent, source, position)
}
#[allow(dead_code)]
pub fn parentheses<T: Context>(
    user_state: &RefCell<UserState>,
    parent: Key,
    context: &RefCell<T>,
    source: &Source,
    position: u32,
) -> (bool, u32) {
    let closure_1 = _terminal(b'(');
    let involved_set: Vec<Rules> = [Rules::Addition, Rules::Expr, Rules::Subtraction].to_vec();
    let closure_2 =
        _var_name_indirect_left_recursion(user_state, &involved_set, Rules::Expr, context, expr);
    let closure_3 = _sequence(&closure_1, &closure_2);
    let closure_4 = _terminal(b')');
    let closure_5 = _sequence(&closure_3, &closure_4);
    closure_5(parent, source, position)
}
#[allow(dead_code)]
pub fn expr<T: Context>(
    user_state: &RefCell<UserState>,
    parent: Key,
    context: &RefCell<T>,
    source: &Source,
    position: u32,
) -> (bool, u32) {
    let involved_set: Vec<Rules> = [Rules::Addition, Rules::Expr, Rules::Subtraction].to_vec();
    let closure_1 = _var_name_indirect_left_recursion(
        user_state,
        &involved_set,
        Rules::Addition,
        context,
        addition,
    );
    let involved_set: Vec<Rules> = [Rules::Addition, Rules::Expr, Rules::Subtraction].to_vec();
    let closure_2 = _var_name_indirect_left_recursion(
        user_state,
        &involved_set,
        Rules::Subtraction,
        context,
        subtraction,
    );
    let closure_3 = _ordered_choice(&closure_1, &closure_2);
    let involved_set: Vec<Rules> = [Rules::Division, Rules::Multiplication, Rules::Term].to_vec();
    let closure_4 =
        _var_name_indirect_left_recursion(user_state, &involved_set, Rules::Term, context, term);
    let closure_5 = _ordered_choice(&closure_3, &closure_4);
    closure_5(parent, source, position)
}
#[allow(dead_code)]
pub fn term<T: Context>(
    user_state: &RefCell<UserState>,
    parent: Key,
    context: &RefCell<T>,
    source: &Source,
    position: u32,
) -> (bool, u32) {
    let involved_set: Vec<Rules> = [Rules::Division, Rules::Multiplication, Rules::Term].to_vec();
    let closure_1 = _var_name_indirect_left_recursion(
        user_state,
        &involved_set,
        Rules::Multiplication,
        context,
        multiplication,
    );
    let involved_set: Vec<Rules> = [Rules::Division, Rules::Multiplication, Rules::Term].to_vec();
    let closure_2 = _var_name_indirect_left_recursion(
        user_state,
        &involved_set,
        Rules::Division,
        context,
        division,
    );
    let closure_3 = _ordered_choice(&closure_1, &closure_2);
    let closure_4 = _var_name(user_state, Rules::Factor, context, factor);
    let closure_5 = _ordered_choice(&closure_3, &closure_4);
    closure_5(parent, source, position)
}
#[allow(dead_code)]
pub fn factor<T: Context>(
    user_state: &RefCell<UserState>,
    parent: Key,
    context: &RefCell<T>,
    source: &Source,
    position: u32,
) -> (bool, u32) {
    let closure_1 = _var_name(user_state, Rules::Parentheses, context, parentheses);
    let closure_2 = _var_name(user_state, Rules::Number, context, number);
    let closure_3 = _ordered_choice(&closure_1, &closure_2);
    closure_3(parent, source, position)
}
#[allow(dead_code)]
pub fn grammar<T: Context>(
    user_state: &RefCell<UserState>,
    parent: Key,
    context: &RefCell<T>,
    source: &Source,
    position: u32,
) -> (bool, u32) {
    let involved_set: Vec<Rules> = [Rules::Addition, Rules::Expr, Rules::Subtraction].to_vec();
    let closure_1 =
        _var_name_indirect_left_recursion(user_state, &involved_set, Rules::Expr, context, expr);
    closure_1(parent, source, position)
}
".
Definition ex3_parser_rs : list N := (ex3_parser_rs_1 ++ ex3_parser_rs_2)%list.

(** examples/example_3_basic_maths_parser/src/rules.rs *)
Definition ex3_rules_rs_1 : list N := bytes "#![allow(non_camel_case_types)] // Again due to generation -> Might solve eventually
use num_derive::FromPrimitive;
impl From<u32> for Rules {
    fn from(i: u32) -> Rules {
        let element = num::FromPrimitive::from_u32(i);
        match element {
            Some(rule) => rule,
            None => panic!(""Not a valid Rule""),
        }
    }
}
#[allow(dead_code)]
pub static RULES_SIZE: u32 = 14;
#[allow(clippy::upper_case_acronyms)] // Again due to generation -> Might solve eventually
#[derive(PartialEq, Eq, Hash, FromPrimitive, Clone, Copy, Debug, Ord, PartialOrd)]

pub enum Rules {
    Grammar,
    Addition,
    Division,
    Exponent,
    Expr,
    Factor,
    Fraction,
    Integer,
    Multiplication,
    Number,
    Parentheses,
    Sign,
    Subtraction,
    Term,
}
".
Definition ex3_rules_rs : list N := (ex3_rules_rs_1)%list.

(** examples/example_4_full_maths_parser/src/parser.rs *)
Definition ex4_parser_rs_1 : list N := bytes "#![allow(non_camel_case_types)] // Generated Code kinda annoying to deal with so w/e
#![allow(unused_variables)] // Generated Code also, since everything passes stuff
#![allow(unused_imports)] // Generated Code also, since everything passes stuff
use crate::*;
use std::cell::RefCell;
#[allow(dead_code)]
pub fn onenine<T: Context>(
    user_state: &RefCell<UserState>,
    parent: Key,
    context: &RefCell<T>,
    source: &Source,
    position: u32,
) -> (bool, u32) {
    let closure_1 = _ordered_choice_match_range(49, 57);
    closure_1(parent, source, position)
}
#[allow(dead_code)]
pub fn digit<T: Context>(
    user_state: &RefCell<UserState>,
    parent: Key,
    context: &RefCell<T>,
    source: &Source,
    position: u32,
) -> (bool, u32) {
    let closure_1 = _ordered_choice_match_range(48, 57);
    closure_1(parent, source, position)
}
#[allow(dead_code)]
pub fn integer<T: Context>(
    user_state: &RefCell<UserState>,
    parent: Key,
    context: &RefCell<T>,
    source: &Source,
    position: u32,
) -> (bool, u32) {
    let closure_1 = _var_name(user_state, Rules::Sign, context, sign);
    let closure_2 = move |parent: Key, source: &Source, position: u32| {
        onenine(user_state, parent, context, source, position)
    };
    let closure_3 = move |parent: Key, source: &Source, position: u32| {
        digit(user_state, parent, context, source, position)
    };
    let closure_4 = _one_or_more(&closure_3);
    let closure_5 = _sequence(&closure_2, &closure_4);
    let closure_6 = _subexpression(&closure_5);
    let closure_7 = move |parent: Key, source: &Source, position: u32| {
        digit(user_state, parent, context, source, position)
    };
    let closure_8 = _ordered_choice(&closure_6, &closure_7);
    let closure_9 = _subexpression(&closure_8);
    let closure_10 = _sequence(&closure_1, &closure_9);
    closure_10(parent, source, position)
}
#[allow(dead_code)]
pub fn number<T: Context>(
    user_state: &RefCell<UserState>,
    parent: Key,
    context: &RefCell<T>,
    source: &Source,
    position: u32,
) -> (bool, u32) {
    let closure_1 = _var_name(user_state, Rules::Integer, context, integer);
    let closure_2 = _var_name(user_state, Rules::Fraction, context, fraction);
    let closure_3 = _optional(&closure_2);
    let closure_4 = _sequence(&closure_1, &closure_3);
    let closure_5 = _var_name(user_state, Rules::Exponent, context, exponent);
    let closure_6 = _optional(&closure_5);
    let closure_7 = _sequence(&closure_4, &closure_6);
    closure_7(parent, source, position)
}
#[allow(dead_code)]
pub fn fraction<T: Context>(
    user_state: &RefCell<UserState>,
    parent: Key,
    context: &RefCell<T>,
    source: &Source,
    position: u32,
) -> (bool, u32) {
    let closure_1 = _terminal(b'.');
    let closure_2 = move |parent: Key, source: &Source, position: u32| {
        digit(user_state, parent, context, source, position)
    };
    let closure_3 = _one_or_more(&closure_2);
    let closure_4 = _sequence(&closure_1, &closure_3);
    let closure_5 = _subexpression(&closure_4);
    closure_5(parent, source, position)
}
#[allow(dead_code)]
pub fn exponent<T: Context>(
    user_state: &RefCell<UserState>,
    parent: Key,
    context: &RefCell<T>,
    source: &Source,
    position: u32,
) -> (bool, u32) {
    let closure_1 = _terminal(b'E');
    let closure_2 = _terminal(b'e');
    let closure_3 = _ordered_choice(&closure_1, &closure_2);
    let closure_4 = _subexpression(&closure_3);
    let closure_5 = _var_name(user_state, Rules::Sign, context, sign);
    let closure_6 = _sequence(&closure_4, &closure_5);
    let closure_7 = move |parent: Key, source: &Source, position: u32| {
        digit(user_state, parent, context, source, position)
    };
    let closure_8 = _one_or_more(&closure_7);
    let closure_9 = _sequence(&closure_6, &closure_8);
    let closure_10 = _subexpression(&closure_9);
    closure_10(parent, source, position)
}
#[allow(dead_code)]
pub fn sign<T: Context>(
    user_state: &RefCell<UserState>,
    parent: Key,
    context: &RefCell<T>,
    source: &Source,
    position: u32,
) -> (bool, u32) {
    let closure_1 = _terminal(b'+');
    let closure_2 = _terminal(b'-');
    let closure_3 = _ordered_choice(&closure_1, &closure_2);
    let closure_4 = _subexpression(&closure_3);
    let closure_5 = _optional(&closure_4);
    closure_5(parent, source, position)
}
#[allow(dead_code)]
pub fn addition<T: Context>(
    user_state: &RefCell<UserState>,
    parent: Key,
    context: &RefCell<T>,
    source: &Source,
    position: u32,
) -> (bool, u32) {
    let involved_set: Vec<Rules> = [Rules::Addition, Rules::Expr, Rules::Subtraction].to_vec();
    let closure_1 =
        _var_name_indirect_left_recursion(user_state, &involved_set, Rules::Expr, context, expr);
    let closure_2 = _terminal(b'+');
    let closure_3 = _sequence(&closure_1, &closure_2);
    let involved_set: Vec<Rules> = [Rules::Division, Rules::Multiplication, Rules::Term].to_vec();
    let closure_4 =
        _var_name_indirect_left_recursion(user_state, &involved_set, Rules::Term, context, term);
    let closure_5 = _sequence(&closure_3, &closure_4);
    closure_5(parent, source, position)
}
#[allow(dead_code)]
pub fn subtraction<T: Context>(
    user_state: &RefCell<UserState>,
    parent: Key,
    context: &RefCell<T>,
    source: &Source,
    position: u32,
) -> (bool, u32) {
    let involved_set: Vec<Rules> = [Rules::Addition, Rules::Expr, Rules::Subtraction].to_vec();
    let closure_1 =
        _var_name_indirect_left_recursion(user_state, &involved_set, Rules::Expr, context, expr);
    let closure_2 = _terminal(b'-');
    let closure_3 = _sequence(&closure_1, &closure_2);
    let involved_set: Vec<Rules> = [Rules::Division, Rules::Multiplication, Rules::Term].to_vec();
    let closure_4 =
        _var_name_indirect_left_recursion(user_state, &involved_set, Rules::Term, context, term);
    let closure_5 = _sequence(&closure_3, &closure_4);
".
Definition ex4_parser_rs_2 : list N := bytes "    closure_5(parent, source, position)
}
#[allow(dead_code)]
pub fn multiplication<T: Context>(
    user_state: &RefCell<UserState>,
    parent: Key,
    context: &RefCell<T>,
    source: &Source,
    position: u32,
) -> (bool, u32) {
    let involved_set: Vec<Rules> = [Rules::Division, Rules::Multiplication, Rules::Term].to_vec();
    let closure_1 =
        _var_name_indirect_left_recursion(user_state, &involved_set, Rules::Term, context, term);
    let closure_2 = _terminal(b'*');
    let closure_3 = _sequence(&closure_1, &closure_2);
    let closure_4 = _var_name(user_state, Rules::Power_expr, context, power_expr);
    let closure_5 = _sequence(&closure_3, &closure_4);
    closure_5(parent, source, position)
}
#[allow(dead_code)]
pub fn division<T: Context>(
    user_state: &RefCell<UserState>,
    parent: Key,
    context: &RefCell<T>,
    source: &Source,
    position: u32,
) -> (bool, u32) {
    let involved_set: Vec<Rules> = [Rules::Division, Rules::Multiplication, Rules::Term].to_vec();
    let closure_1 =
        _var_name_indirect_left_recursion(user_state, &involved_set, Rules::Term, context, term);
    let closure_2 = _terminal(b'/');
    let closure_3 = _sequence(&closure_1, &closure_2);
    let closure_4 = _var_name(user_state, Rules::Power_expr, context, power_expr);
    let closure_5 = _sequence(&closure_3, &closure_4);
    closure_5(parent, source, position)
}
#[allow(dead_code)]
pub fn parentheses<T: Context>(
    user_state: &RefCell<UserState>,
    parent: Key,
    context: &RefCell<T>,
    source: &Source,
    position: u32,
) -> (bool, u32) {
    let closure_1 = _terminal(b'(');
    let involved_set: Vec<Rules> = [Rules::Addition, Rules::Expr, Rules::Subtraction].to_vec();
    let closure_2 =
        _var_name_indirect_left_recursion(user_state, &involved_set, Rules::Expr, context, expr);
    let closure_3 = _sequence(&closure_1, &closure_2);
    let closure_4 = _terminal(b')');
    let closure_5 = _sequence(&closure_3, &closure_4);
    closure_5(parent, source, position)
}
#[allow(dead_code)]
pub fn power<T: Context>(
    user_state: &RefCell<UserState>,
    parent: Key,
    context: &RefCell<T>,
    source: &Source,
    position: u32,
) -> (bool, u32) {
    let closure_1 = _var_name(user_state, Rules::Factor, context, factor);
    let closure_2 = _terminal(b'^');
    let closure_3 = _sequence(&closure_1, &closure_2);
    let closure_4 = _var_name(user_state, Rules::Power_expr, context, power_expr);
    let closure_5 = _sequence(&closure_3, &closure_4);
    closure_5(parent, source, position)
}
#[allow(dead_code)]
pub fn expr<T: Context>(
    user_state: &RefCell<UserState>,
    parent: Key,
    context: &RefCell<T>,
    source: &Source,
    position: u32,
) -> (bool, u32) {
    let involved_set: Vec<Rules> = [Rules::Addition, Rules::Expr, Rules::Subtraction].to_vec();
    let closure_1 = _var_name_indirect_left_recursion(
        user_state,
        &involved_set,
        Rules::Addition,
        context,
        addition,
    );
    let involved_set: Vec<Rules> = [Rules::Addition, Rules::Expr, Rules::Subtraction].to_vec();
    let closure_2 = _var_name_indirect_left_recursion(
        user_state,
        &involved_set,
        Rules::Subtraction,
        context,
        subtraction,
    );
    let closure_3 = _ordered_choice(&closure_1, &closure_2);
    let involved_set: Vec<Rules> = [Rules::Division, Rules::Multiplication, Rules::Term].to_vec();
    let closure_4 =
        _var_name_indirect_left_recursion(user_state, &involved_set, Rules::Term, context, term);
    let closure_5 = _ordered_choice(&closure_3, &closure_4);
    closure_5(parent, source, position)
}
#[allow(dead_code)]
pub fn term<T: Context>(
    user_state: &RefCell<UserState>,
    parent: Key,
    context: &RefCell<T>,
    source: &Source,
    position: u32,
) -> (bool, u32) {
    let involved_set: Vec<Rules> = [Rules::Division, Rules::Multiplication, Rules::Term].to_vec();
    let closure_1 = _var_name_indirect_left_recursion(
        user_state,
        &involved_set,
        Rules::Multiplication,
        context,
        multiplication,
    );
    let involved_set: Vec<Rules> = [Rules::Division, Rules::Multiplication, Rules::Term].to_vec();
    let closure_2 = _var_name_indirect_left_recursion(
        user_state,
        &involved_set,
        Rules::Division,
        context,
        division,
    );
    let closure_3 = _ordered_choice(&closure_1, &closure_2);
    let closure_4 = _var_name(user_state, Rules::Power_expr, context, power_expr);
    let closure_5 = _ordered_choice(&closure_3, &closure_4);
    closure_5(parent, source, position)
}
#[allow(dead_code)]
pub fn power_expr<T: Context>(
    user_state: &RefCell<UserState>,
    parent: Key,
    context: &RefCell<T>,
    source: &Source,
    position: u32,
) -> (bool, u32) {
    let closure_1 = _var_name(user_state, Rules::Power, context, power);
    let closure_2 = _var_name(user_state, Rules::Factor, context, factor);
    let closure_3 = _ordered_choice(&closure_1, &closure_2);
    closure_3(parent, source, position)
}
#[allow(dead_code)]
pub fn factor<T: Context>(
    user_state: &RefCell<UserState>,
    parent: Key,
    context: &RefCell<T>,
    source: &Source,
    position: u32,
) -> (bool, u32) {
    let closure_1 = _var_name(user_state, Rules::Parentheses, context, parentheses);
    let closure_2 = _var_name(user_state, Rules::Number, context, number);
    let closure_3 = _ordered_choice(&closure_1, &closure_2);
    closure_3(parent, source, position)
}
#[allow(dead_code)]
pub fn grammar<T: Context>(
    user_state: &RefCell<UserState>,
    parent: Key,
    context: &RefCell<T>,
    source: &Source,
    position: u32,
) -> (bool, u32) {
    let involved_set: Vec<Rules> = [Rules::Addition, Rules::Expr, Rules::Subtraction].to_vec();
    let closure_1 =
        _var_name_indirect_left_recursion(user_state, &involved_set, Rules::Expr, context, expr);
    closure_1(parent, source, position)
}
".
Definition ex4_parser_rs : list N := (ex4_parser_rs_1 ++ ex4_parser_rs_2)%list.

(** examples/example_4_full_maths_parser/src/rules.rs *)
Definition ex4_rules_rs_1 : list N := bytes "#![allow(non_camel_case_types)] // Again due to generation -> Might solve eventually
use num_derive::FromPrimitive;
impl From<u32> for Rules {
    fn from(i: u32) -> Rules {
        let element = num::FromPrimitive::from_u32(i);
        match element {
            Some(rule) => rule,
            None => panic!(""Not a valid Rule""),
        }
    }
}
#[allow(dead_code)]
pub static RULES_SIZE: u32 = 16;
#[allow(clippy::upper_case_acronyms)] // Again due to generation -> Might solve eventually
#[derive(PartialEq, Eq, Hash, FromPrimitive, Clone, Copy, Debug, Ord, PartialOrd)]

pub enum Rules {
    Grammar,
    Addition,
    Division,
    Exponent,
    Expr,
    Factor,
    Fraction,
    Integer,
    Multiplication,
    Number,
    Parentheses,
    Power,
    Power_expr,
    Sign,
    Subtraction,
    Term,
}
".
Definition ex4_rules_rs : list N := (ex4_rules_rs_1)%list.

(** examples/example_5_lr_num_parser/src/parser.rs *)
Definition ex5_parser_rs_1 : list N := bytes "#![allow(non_camel_case_types)] // Generated Code kinda annoying to deal with so w/e
#![allow(unused_variables)] // Generated Code also, since everything passes stuff
#![allow(unused_imports)] // Generated Code also, since everything passes stuff
use crate::*;
use std::cell::RefCell;
#[allow(dead_code)]
pub fn num<T: Context>(
    user_state: &RefCell<UserState>,
    parent: Key,
    context: &RefCell<T>,
    source: &Source,
    position: u32,
) -> (bool, u32) {
    let closure_1 = _ordered_choice_match_range(48, 57);
    closure_1(parent, source, position)
}
#[allow(dead_code)]
pub fn expr<T: Context>(
    user_state: &RefCell<UserState>,
    parent: Key,
    context: &RefCell<T>,
    source: &Source,
    position: u32,
) -> (bool, u32) {
    // Should match 0-0-0-0-0-0-0-0 etc

    let involved_set: Vec<Rules> = [Rules::Expr].to_vec();
    let closure_1 =
        _var_name_indirect_left_recursion(user_state, &involved_set, Rules::Expr, context, expr);
    let closure_2 = _terminal(b'-');
    let closure_3 = _sequence(&closure_1, &closure_2);
    let closure_4 = _var_name(user_state, Rules::Num, context, num);
    let closure_5 = _sequence(&closure_3, &closure_4);
    let closure_6 = _subexpression(&closure_5);
    let closure_7 = _var_name(user_state, Rules::Num, context, num);
    let closure_8 = _ordered_choice(&closure_6, &closure_7);
    closure_8(parent, source, position)
}
#[allow(dead_code)]
pub fn grammar<T: Context>(
    user_state: &RefCell<UserState>,
    parent: Key,
    context: &RefCell<T>,
    source: &Source,
    position: u32,
) -> (bool, u32) {
    let involved_set: Vec<Rules> = [Rules::Expr].to_vec();
    let closure_1 =
        _var_name_indirect_left_recursion(user_state, &involved_set, Rules::Expr, context, expr);
    closure_1(parent, source, position)
}
".
Definition ex5_parser_rs : list N := (ex5_parser_rs_1)%list.

(** examples/example_5_lr_num_parser/src/rules.rs *)
Definition ex5_rules_rs_1 : list N := bytes "#![allow(non_camel_case_types)] // Again due to generation -> Might solve eventually
use num_derive::FromPrimitive;
impl From<u32> for Rules {
    fn from(i: u32) -> Rules {
        let element = num::FromPrimitive::from_u32(i);
        match element {
            Some(rule) => rule,
            None => panic!(""Not a valid Rule""),
        }
    }
}
#[allow(dead_code)]
pub static RULES_SIZE: u32 = 3;
#[allow(clippy::upper_case_acronyms)] // Again due to generation -> Might solve eventually
#[derive(PartialEq, Eq, Hash, FromPrimitive, Clone, Copy, Debug, Ord, PartialOrd)]

pub enum Rules {
    Grammar,
    Expr,
    Num,
}
".
Definition ex5_rules_rs : list N := (ex5_rules_rs_1)%list.

(** examples/example_6_term_and_fact_parser/src/parser.rs *)
Definition ex6_parser_rs_1 : list N := bytes "#![allow(non_camel_case_types)] // Generated Code kinda annoying to deal with so w/e
#![allow(unused_variables)] // Generated Code also, since everything passes stuff
#![allow(unused_imports)] // Generated Code also, since everything passes stuff
use crate::*;
use std::cell::RefCell;
#[allow(dead_code)]
pub fn num<T: Context>(
    user_state: &RefCell<UserState>,
    parent: Key,
    context: &RefCell<T>,
    source: &Source,
    position: u32,
) -> (bool, u32) {
    let closure_1 = _ordered_choice_match_range(48, 57);
    closure_1(parent, source, position)
}
#[allow(dead_code)]
pub fn term<T: Context>(
    user_state: &RefCell<UserState>,
    parent: Key,
    context: &RefCell<T>,
    source: &Source,
    position: u32,
) -> (bool, u32) {
    let involved_set: Vec<Rules> = [Rules::Term].to_vec();
    let closure_1 =
        _var_name_indirect_left_recursion(user_state, &involved_set, Rules::Term, context, term);
    let closure_2 = _terminal(b'+');
    let closure_3 = _sequence(&closure_1, &closure_2);
    let involved_set: Vec<Rules> = [Rules::Fact].to_vec();
    let closure_4 =
        _var_name_indirect_left_recursion(user_state, &involved_set, Rules::Fact, context, fact);
    let closure_5 = _sequence(&closure_3, &closure_4);
    let closure_6 = _subexpression(&closure_5);
    let involved_set: Vec<Rules> = [Rules::Term].to_vec();
    let closure_7 =
        _var_name_indirect_left_recursion(user_state, &involved_set, Rules::Term, context, term);
    let closure_8 = _terminal(b'-');
    let closure_9 = _sequence(&closure_7, &closure_8);
    let involved_set: Vec<Rules> = [Rules::Fact].to_vec();
    let closure_10 =
        _var_name_indirect_left_recursion(user_state, &involved_set, Rules::Fact, context, fact);
    let closure_11 = _sequence(&closure_9, &closure_10);
    let closure_12 = _subexpression(&closure_11);
    let closure_13 = _ordered_choice(&closure_6, &closure_12);
    let involved_set: Vec<Rules> = [Rules::Fact].to_vec();
    let closure_14 =
        _var_name_indirect_left_recursion(user_state, &involved_set, Rules::Fact, context, fact);
    let closure_15 = _ordered_choice(&closure_13, &closure_14);
    closure_15(parent, source, position)
}
#[allow(dead_code)]
pub fn fact<T: Context>(
    user_state: &RefCell<UserState>,
    parent: Key,
    context: &RefCell<T>,
    source: &Source,
    position: u32,
) -> (bool, u32) {
    let involved_set: Vec<Rules> = [Rules::Fact].to_vec();
    let closure_1 =
        _var_name_indirect_left_recursion(user_state, &involved_set, Rules::Fact, context, fact);
    let closure_2 = _terminal(b'*');
    let closure_3 = _sequence(&closure_1, &closure_2);
    let closure_4 = _var_name(user_state, Rules::Num, context, num);
    let closure_5 = _sequence(&closure_3, &closure_4);
    let closure_6 = _subexpression(&closure_5);
    let involved_set: Vec<Rules> = [Rules::Fact].to_vec();
    let closure_7 =
        _var_name_indirect_left_recursion(user_state, &involved_set, Rules::Fact, context, fact);
    let closure_8 = _terminal(b'/');
    let closure_9 = _sequence(&closure_7, &closure_8);
    let closure_10 = _var_name(user_state, Rules::Num, context, num);
    let closure_11 = _sequence(&closure_9, &closure_10);
    let closure_12 = _subexpression(&closure_11);
    let closure_13 = _ordered_choice(&closure_6, &closure_12);
    let closure_14 = _var_name(user_state, Rules::Num, context, num);
    let closure_15 = _ordered_choice(&closure_13, &closure_14);
    closure_15(parent, source, position)
}
#[allow(dead_code)]
pub fn grammar<T: Context>(
    user_state: &RefCell<UserState>,
    parent: Key,
    context: &RefCell<T>,
    source: &Source,
    position: u32,
) -> (bool, u32) {
    let involved_set: Vec<Rules> = [Rules::Term].to_vec();
    let closure_1 =
        _var_name_indirect_left_recursion(user_state, &involved_set, Rules::Term, context, term);
    closure_1(parent, source, position)
}
".
Definition ex6_parser_rs : list N := (ex6_parser_rs_1)%list.

(** examples/example_6_term_and_fact_parser/src/rules.rs *)
Definition ex6_rules_rs_1 : list N := bytes "#![allow(non_camel_case_types)] // Again due to generation -> Might solve eventually
use num_derive::FromPrimitive;
impl From<u32> for Rules {
    fn from(i: u32) -> Rules {
        let element = num::FromPrimitive::from_u32(i);
        match element {
            Some(rule) => rule,
            None => panic!(""Not a valid Rule""),
        }
    }
}
#[allow(dead_code)]
pub static RULES_SIZE: u32 = 4;
#[allow(clippy::upper_case_acronyms)] // Again due to generation -> Might solve eventually
#[derive(PartialEq, Eq, Hash, FromPrimitive, Clone, Copy, Debug, Ord, PartialOrd)]

pub enum Rules {
    Grammar,
    Fact,
    Num,
    Term,
}
".
Definition ex6_rules_rs : list N := (ex6_rules_rs_1)%list.

(** examples/example_7_indirect_lr_num_parser/src/parser.rs *)
Definition ex7_parser_rs_1 : list N := bytes "#![allow(non_camel_case_types)] // Generated Code kinda annoying to deal with so w/e
#![allow(unused_variables)] // Generated Code also, since everything passes stuff
#![allow(unused_imports)] // Generated Code also, since everything passes stuff
use crate::*;
use std::cell::RefCell;
#[allow(dead_code)]
pub fn num<T: Context>(
    user_state: &RefCell<UserState>,
    parent: Key,
    context: &RefCell<T>,
    source: &Source,
    position: u32,
) -> (bool, u32) {
    let closure_1 = _ordered_choice_match_range(48, 57);
    closure_1(parent, source, position)
}
#[allow(dead_code)]
pub fn intermediate<T: Context>(
    user_state: &RefCell<UserState>,
    parent: Key,
    context: &RefCell<T>,
    source: &Source,
    position: u32,
) -> (bool, u32) {
    let involved_set: Vec<Rules> = [Rules::Expr, Rules::Intermediate].to_vec();
    let closure_1 =
        _var_name_indirect_left_recursion(user_state, &involved_set, Rules::Expr, context, expr);
    closure_1(parent, source, position)
}
#[allow(dead_code)]
pub fn expr<T: Context>(
    user_state: &RefCell<UserState>,
    parent: Key,
    context: &RefCell<T>,
    source: &Source,
    position: u32,
) -> (bool, u32) {
    // Should match 0-0-0-0-0-0-0-0 etc

    let involved_set: Vec<Rules> = [Rules::Expr, Rules::Intermediate].to_vec();
    let closure_1 = _var_name_indirect_left_recursion(
        user_state,
        &involved_set,
        Rules::Intermediate,
        context,
        intermediate,
    );
    let closure_2 = _terminal(b'-');
    let closure_3 = _sequence(&closure_1, &closure_2);
    let closure_4 = _var_name(user_state, Rules::Num, context, num);
    let closure_5 = _sequence(&closure_3, &closure_4);
    let closure_6 = _subexpression(&closure_5);
    let closure_7 = _var_name(user_state, Rules::Num, context, num);
    let closure_8 = _ordered_choice(&closure_6, &closure_7);
    closure_8(parent, source, position)
}
#[allow(dead_code)]
pub fn grammar<T: Context>(
    user_state: &RefCell<UserState>,
    parent: Key,
    context: &RefCell<T>,
    source: &Source,
    position: u32,
) -> (bool, u32) {
    let involved_set: Vec<Rules> = [Rules::Expr, Rules::Intermediate].to_vec();
    let closure_1 =
        _var_name_indirect_left_recursion(user_state, &involved_set, Rules::Expr, context, expr);
    closure_1(parent, source, position)
}
".
Definition ex7_parser_rs : list N := (ex7_parser_rs_1)%list.

(** examples/example_7_indirect_lr_num_parser/src/rules.rs *)
Definition ex7_rules_rs_1 : list N := bytes "#![allow(non_camel_case_types)] // Again due to generation -> Might solve eventually
use num_derive::FromPrimitive;
impl From<u32> for Rules {
    fn from(i: u32) -> Rules {
        let element = num::FromPrimitive::from_u32(i);
        match element {
            Some(rule) => rule,
            None => panic!(""Not a valid Rule""),
        }
    }
}
#[allow(dead_code)]
pub static RULES_SIZE: u32 = 4;
#[allow(clippy::upper_case_acronyms)] // Again due to generation -> Might solve eventually
#[derive(PartialEq, Eq, Hash, FromPrimitive, Clone, Copy, Debug, Ord, PartialOrd)]

pub enum Rules {
    Grammar,
    Expr,
    Intermediate,
    Num,
}
".
Definition ex7_rules_rs : list N := (ex7_rules_rs_1)%list.

(** examples/example_8_indirect_lr_3_level_parser/src/parser.rs *)
Definition ex8_parser_rs_1 : list N := bytes "#![allow(non_camel_case_types)] // Generated Code kinda annoying to deal with so w/e
#![allow(unused_variables)] // Generated Code also, since everything passes stuff
#![allow(unused_imports)] // Generated Code also, since everything passes stuff
use crate::*;
use std::cell::RefCell;
#[allow(dead_code)]
pub fn num<T: Context>(
    user_state: &RefCell<UserState>,
    parent: Key,
    context: &RefCell<T>,
    source: &Source,
    position: u32,
) -> (bool, u32) {
    let closure_1 = _ordered_choice_match_range(48, 57);
    closure_1(parent, source, position)
}
#[allow(dead_code)]
pub fn test_lr_num<T: Context>(
    user_state: &RefCell<UserState>,
    parent: Key,
    context: &RefCell<T>,
    source: &Source,
    position: u32,
) -> (bool, u32) {
    let closure_1 = _var_name(user_state, Rules::Num, context, num);
    closure_1(parent, source, position)
}
#[allow(dead_code)]
pub fn test_indirect_three_level_a<T: Context>(
    user_state: &RefCell<UserState>,
    parent: Key,
    context: &RefCell<T>,
    source: &Source,
    position: u32,
) -> (bool, u32) {
    let involved_set: Vec<Rules> = [
        Rules::Test_indirect_three_level_A,
        Rules::Test_indirect_three_level_B,
        Rules::Test_indirect_three_level_C,
    ]
    .to_vec();
    let closure_1 = _var_name_indirect_left_recursion(
        user_state,
        &involved_set,
        Rules::Test_indirect_three_level_B,
        context,
        test_indirect_three_level_b,
    );
    let closure_2 = _terminal(b'-');
    let closure_3 = _sequence(&closure_1, &closure_2);
    let closure_4 = _var_name(user_state, Rules::Test_LR_num, context, test_lr_num);
    let closure_5 = _sequence(&closure_3, &closure_4);
    let closure_6 = _subexpression(&closure_5);
    let closure_7 = _var_name(user_state, Rules::Test_LR_num, context, test_lr_num);
    let closure_8 = _ordered_choice(&closure_6, &closure_7);
    closure_8(parent, source, position)
}
#[allow(dead_code)]
pub fn test_indirect_three_level_b<T: Context>(
    user_state: &RefCell<UserState>,
    parent: Key,
    context: &RefCell<T>,
    source: &Source,
    position: u32,
) -> (bool, u32) {
    let involved_set: Vec<Rules> = [
        Rules::Test_indirect_three_level_A,
        Rules::Test_indirect_three_level_B,
        Rules::Test_indirect_three_level_C,
    ]
    .to_vec();
    let closure_1 = _var_name_indirect_left_recursion(
        user_state,
        &involved_set,
        Rules::Test_indirect_three_level_C,
        context,
        test_indirect_three_level_c,
    );
    closure_1(parent, source, position)
}
#[allow(dead_code)]
pub fn test_indirect_three_level_c<T: Context>(
    user_state: &RefCell<UserState>,
    parent: Key,
    context: &RefCell<T>,
    source: &Source,
    position: u32,
) -> (bool, u32) {
    let involved_set: Vec<Rules> = [
        Rules::Test_indirect_three_level_A,
        Rules::Test_indirect_three_level_B,
        Rules::Test_indirect_three_level_C,
    ]
    .to_vec();
    let closure_1 = _var_name_indirect_left_recursion(
        user_state,
        &involved_set,
        Rules::Test_indirect_three_level_A,
        context,
        test_indirect_three_level_a,
    );
    closure_1(parent, source, position)
}
#[allow(dead_code)]
pub fn grammar<T: Context>(
    user_state: &RefCell<UserState>,
    parent: Key,
    context: &RefCell<T>,
    source: &Source,
    position: u32,
) -> (bool, u32) {
    let involved_set: Vec<Rules> = [
        Rules::Test_indirect_three_level_A,
        Rules::Test_indirect_three_level_B,
        Rules::Test_indirect_three_level_C,
    ]
    .to_vec();
    let closure_1 = _var_name_indirect_left_recursion(
        user_state,
        &involved_set,
        Rules::Test_indirect_three_level_A,
        context,
        test_indirect_three_level_a,
    );
    closure_1(parent, source, position)
}
".
Definition ex8_parser_rs : list N := (ex8_parser_rs_1)%list.

(** examples/example_8_indirect_lr_3_level_parser/src/rules.rs *)
Definition ex8_rules_rs_1 : list N := bytes "#![allow(non_camel_case_types)] // Again due to generation -> Might solve eventually
use num_derive::FromPrimitive;
impl From<u32> for Rules {
    fn from(i: u32) -> Rules {
        let element = num::FromPrimitive::from_u32(i);
        match element {
            Some(rule) => rule,
            None => panic!(""Not a valid Rule""),
        }
    }
}
#[allow(dead_code)]
pub static RULES_SIZE: u32 = 6;
#[allow(clippy::upper_case_acronyms)] // Again due to generation -> Might solve eventually
#[derive(PartialEq, Eq, Hash, FromPrimitive, Clone, Copy, Debug, Ord, PartialOrd)]

pub enum Rules {
    Grammar,
    Num,
    Test_LR_num,
    Test_indirect_three_level_A,
    Test_indirect_three_level_B,
    Test_indirect_three_level_C,
}
".
Definition ex8_rules_rs : list N := (ex8_rules_rs_1)%list.

(** examples/example_9_indirect_lr_5_level_parser/src/parser.rs *)
Definition ex9_parser_rs_1 : list N := bytes "#![allow(non_camel_case_types)] // Generated Code kinda annoying to deal with so w/e
#![allow(unused_variables)] // Generated Code also, since everything passes stuff
#![allow(unused_imports)] // Generated Code also, since everything passes stuff
use crate::*;
use std::cell::RefCell;
#[allow(dead_code)]
pub fn num<T: Context>(
    user_state: &RefCell<UserState>,
    parent: Key,
    context: &RefCell<T>,
    source: &Source,
    position: u32,
) -> (bool, u32) {
    let closure_1 = _ordered_choice_match_range(48, 57);
    closure_1(parent, source, position)
}
#[allow(dead_code)]
pub fn test_lr_num<T: Context>(
    user_state: &RefCell<UserState>,
    parent: Key,
    context: &RefCell<T>,
    source: &Source,
    position: u32,
) -> (bool, u32) {
    let closure_1 = _var_name(user_state, Rules::Num, context, num);
    closure_1(parent, source, position)
}
#[allow(dead_code)]
pub fn test_indirect_three_level_a<T: Context>(
    user_state: &RefCell<UserState>,
    parent: Key,
    context: &RefCell<T>,
    source: &Source,
    position: u32,
) -> (bool, u32) {
    let involved_set: Vec<Rules> = [
        Rules::Test_indirect_three_level_A,
        Rules::Test_indirect_three_level_B,
        Rules::Test_indirect_three_level_C,
        Rules::Test_indirect_three_level_D,
        Rules::Test_indirect_three_level_E,
    ]
    .to_vec();
    let closure_1 = _var_name_indirect_left_recursion(
        user_state,
        &involved_set,
        Rules::Test_indirect_three_level_B,
        context,
        test_indirect_three_level_b,
    );
    let closure_2 = _terminal(b'-');
    let closure_3 = _sequence(&closure_1, &closure_2);
    let closure_4 = _var_name(user_state, Rules::Test_LR_num, context, test_lr_num);
    let closure_5 = _sequence(&closure_3, &closure_4);
    let closure_6 = _subexpression(&closure_5);
    let closure_7 = _var_name(user_state, Rules::Test_LR_num, context, test_lr_num);
    let closure_8 = _ordered_choice(&closure_6, &closure_7);
    closure_8(parent, source, position)
}
#[allow(dead_code)]
pub fn test_indirect_three_level_b<T: Context>(
    user_state: &RefCell<UserState>,
    parent: Key,
    context: &RefCell<T>,
    source: &Source,
    position: u32,
) -> (bool, u32) {
    let involved_set: Vec<Rules> = [
        Rules::Test_indirect_three_level_A,
        Rules::Test_indirect_three_level_B,
        Rules::Test_indirect_three_level_C,
        Rules::Test_indirect_three_level_D,
        Rules::Test_indirect_three_level_E,
    ]
    .to_vec();
    let closure_1 = _var_name_indirect_left_recursion(
        user_state,
        &involved_set,
        Rules::Test_indirect_three_level_C,
        context,
        test_indirect_three_level_c,
    );
    closure_1(parent, source, position)
}
#[allow(dead_code)]
pub fn test_indirect_three_level_c<T: Context>(
    user_state: &RefCell<UserState>,
    parent: Key,
    context: &RefCell<T>,
    source: &Source,
    position: u32,
) -> (bool, u32) {
    let involved_set: Vec<Rules> = [
        Rules::Test_indirect_three_level_A,
        Rules::Test_indirect_three_level_B,
        Rules::Test_indirect_three_level_C,
        Rules::Test_indirect_three_level_D,
        Rules::Test_indirect_three_level_E,
    ]
    .to_vec();
    let closure_1 = _var_name_indirect_left_recursion(
        user_state,
        &involved_set,
        Rules::Test_indirect_three_level_D,
        context,
        test_indirect_three_level_d,
    );
    closure_1(parent, source, position)
}
#[allow(dead_code)]
pub fn test_indirect_three_level_d<T: Context>(
    user_state: &RefCell<UserState>,
    parent: Key,
    context: &RefCell<T>,
    source: &Source,
    position: u32,
) -> (bool, u32) {
    let involved_set: Vec<Rules> = [
        Rules::Test_indirect_three_level_A,
        Rules::Test_indirect_three_level_B,
        Rules::Test_indirect_three_level_C,
        Rules::Test_indirect_three_level_D,
        Rules::Test_indirect_three_level_E,
    ]
    .to_vec();
    let closure_1 = _var_name_indirect_left_recursion(
        user_state,
        &involved_set,
        Rules::Test_indirect_three_level_E,
        context,
        test_indirect_three_level_e,
    );
    closure_1(parent, source, position)
}
#[allow(dead_code)]
pub fn test_indirect_three_level_e<T: Context>(
    user_state: &RefCell<UserState>,
    parent: Key,
    context: &RefCell<T>,
    source: &Source,
    position: u32,
) -> (bool, u32) {
    let involved_set: Vec<Rules> = [
        Rules::Test_indirect_three_level_A,
        Rules::Test_indirect_three_level_B,
        Rules::Test_indirect_three_level_C,
        Rules::Test_indirect_three_level_D,
        Rules::Test_indirect_three_level_E,
    ]
    .to_vec();
    let closure_1 = _var_name_indirect_left_recursion(
        user_state,
        &involved_set,
        Rules::Test_indirect_three_level_A,
        context,
        test_indirect_three_level_a,
    );
    closure_1(parent, source, position)
}
#[allow(dead_code)]
pub fn grammar<T: Context>(
    user_state: &RefCell<UserState>,
    parent: Key,
    context: &RefCell<T>,
    source: &Source,
    position: u32,
) -> (bool, u32) {
    let involved_set: Vec<Rules> = [
        Rules::Test_indirect_three_level_A,
        Rules::Test_indirect_three_level_B,
        Rules::Test_indirect_three_level_C,
        Rules::Test_indirect_three_level_D,
        Rules::Test_indirect_three_level_E,
    ]
    .to_vec();
    let closure_1 = _var_name_indirect_left_recursion(
        user_state,
        &involved_set,
        Rules::Test_indirect_three_level_A,
        context,
        test_indirect_three_level_a,
    );
    closure_1(parent, source, position)
}
".
Definition ex9_parser_rs : list N := (ex9_parser_rs_1)%list.

(** examples/example_9_indirect_lr_5_level_parser/src/rules.rs *)
Definition ex9_rules_rs_1 : list N := bytes "#![allow(non_camel_case_types)] // Again due to generation -> Might solve eventually
use num_derive::FromPrimitive;
impl From<u32> for Rules {
    fn from(i: u32) -> Rules {
        let element = num::FromPrimitive::from_u32(i);
        match element {
            Some(rule) => rule,
            None => panic!(""Not a valid Rule""),
        }
    }
}
#[allow(dead_code)]
pub static RULES_SIZE: u32 = 8;
#[allow(clippy::upper_case_acronyms)] // Again due to generation -> Might solve eventually
#[derive(PartialEq, Eq, Hash, FromPrimitive, Clone, Copy, Debug, Ord, PartialOrd)]

pub enum Rules {
    Grammar,
    Num,
    Test_LR_num,
    Test_indirect_three_level_A,
    Test_indirect_three_level_B,
    Test_indirect_three_level_C,
    Test_indirect_three_level_D,
    Test_indirect_three_level_E,
}
".
Definition ex9_rules_rs : list N := (ex9_rules_rs_1)%list.

(** examples/example_10_basic_bench_parser/src/parser.rs *)
Definition ex10_parser_rs_1 : list N := bytes "#![allow(non_camel_case_types)] // Generated Code kinda annoying to deal with so w/e
#![allow(unused_variables)] // Generated Code also, since everything passes stuff
#![allow(unused_imports)] // Generated Code also, since everything passes stuff
use crate::*;
use std::cell::RefCell;
#[allow(dead_code)]
pub fn rr<T: Context>(
    user_state: &RefCell<UserState>,
    parent: Key,
    context: &RefCell<T>,
    source: &Source,
    position: u32,
) -> (bool, u32) {
    // rr ::= ""1"" <rr> / ""1""

    let closure_1 = _terminal(b'1');
    let closure_2 = _var_name(user_state, Rules::Rr, context, rr);
    let closure_3 = _sequence(&closure_1, &closure_2);
    let closure_4 = _subexpression(&closure_3);
    let closure_5 = _terminal(b'1');
    let closure_6 = _ordered_choice(&closure_4, &closure_5);
    closure_6(parent, source, position)
}
#[allow(dead_code)]
pub fn lr<T: Context>(
    user_state: &RefCell<UserState>,
    parent: Key,
    context: &RefCell<T>,
    source: &Source,
    position: u32,
) -> (bool, u32) {
    // lr ::= <lr> ""1"" / ""1""

    let involved_set: Vec<Rules> = [Rules::Lr].to_vec();
    let closure_1 =
        _var_name_indirect_left_recursion(user_state, &involved_set, Rules::Lr, context, lr);
    let closure_2 = _terminal(b'1');
    let closure_3 = _sequence(&closure_1, &closure_2);
    let closure_4 = _subexpression(&closure_3);
    let closure_5 = _terminal(b'1');
    let closure_6 = _ordered_choice(&closure_4, &closure_5);
    closure_6(parent, source, position)
}
#[allow(dead_code)]
pub fn grammar<T: Context>(
    user_state: &RefCell<UserState>,
    parent: Key,
    context: &RefCell<T>,
    source: &Source,
    position: u32,
) -> (bool, u32) {
    // We do not use grammar for this benchmark but we need one for the generation to work.

    let closure_1 = _var_name(user_state, Rules::Rr, context, rr);
    closure_1(parent, source, position)
}
".
Definition ex10_parser_rs : list N := (ex10_parser_rs_1)%list.

(** examples/example_10_basic_bench_parser/src/rules.rs *)
Definition ex10_rules_rs_1 : list N := bytes "#![allow(non_camel_case_types)] // Again due to generation -> Might solve eventually
use num_derive::FromPrimitive;
impl From<u32> for Rules {
    fn from(i: u32) -> Rules {
        let element = num::FromPrimitive::from_u32(i);
        match element {
            Some(rule) => rule,
            None => panic!(""Not a valid Rule""),
        }
    }
}
#[allow(dead_code)]
pub static RULES_SIZE: u32 = 3;
#[allow(clippy::upper_case_acronyms)] // Again due to generation -> Might solve eventually
#[derive(PartialEq, Eq, Hash, FromPrimitive, Clone, Copy, Debug, Ord, PartialOrd)]

pub enum Rules {
    Grammar,
    Lr,
    Rr,
}
".
Definition ex10_rules_rs : list N := (ex10_rules_rs_1)%list.

(** examples/example_11_external_rule_call_parser/src/parser.rs *)
Definition ex11_parser_rs_1 : list N := bytes "#![allow(non_camel_case_types)] // Generated Code kinda annoying to deal with so w/e
#![allow(unused_variables)] // Generated Code also, since everything passes stuff
#![allow(unused_imports)] // Generated Code also, since everything passes stuff
use crate::hooked_calls::unique_line_cache;
use crate::*;
use std::cell::RefCell;
#[allow(dead_code)]
pub fn alphabet_lower<T: Context>(
    user_state: &RefCell<UserState>,
    parent: Key,
    context: &RefCell<T>,
    source: &Source,
    position: u32,
) -> (bool, u32) {
    let closure_1 = _ordered_choice_match_range(97, 122);
    closure_1(parent, source, position)
}
#[allow(dead_code)]
pub fn unique_line_matcher<T: Context>(
    user_state: &RefCell<UserState>,
    parent: Key,
    context: &RefCell<T>,
    source: &Source,
    position: u32,
) -> (bool, u32) {
    // Trivial context sensitive grammar, any lower case line will be matched but only once.

    let closure_1 = move |parent: Key, source: &Source, position: u32| {
        alphabet_lower(user_state, parent, context, source, position)
    };
    let closure_2 = _terminal(b' ');
    let closure_3 = _ordered_choice(&closure_1, &closure_2);
    let closure_4 = _subexpression(&closure_3);
    let closure_5 = _one_or_more(&closure_4);
    let closure_6 = _terminal(b'\n');
    let closure_7 = _sequence(&closure_5, &closure_6);
    let closure_8 = _subexpression(&closure_7);
    let closure_9 = unique_line_cache(user_state, parent, context, source, position, &closure_8);
    closure_9(parent, source, position)
}
#[allow(dead_code)]
pub fn grammar<T: Context>(
    user_state: &RefCell<UserState>,
    parent: Key,
    context: &RefCell<T>,
    source: &Source,
    position: u32,
) -> (bool, u32) {
    let closure_1 = _var_name(
        user_state,
        Rules::Unique_line_matcher,
        context,
        unique_line_matcher,
    );
    let closure_2 = _subexpression(&closure_1);
    let closure_3 = _one_or_more(&closure_2);
    closure_3(parent, source, position)
}
".
Definition ex11_parser_rs : list N := (ex11_parser_rs_1)%list.

(** examples/example_11_external_rule_call_parser/src/rules.rs *)
Definition ex11_rules_rs_1 : list N := bytes "#![allow(non_camel_case_types)] // Again due to generation -> Might solve eventually
use num_derive::FromPrimitive;
impl From<u32> for Rules {
    fn from(i: u32) -> Rules {
        let element = num::FromPrimitive::from_u32(i);
        match element {
            Some(rule) => rule,
            None => panic!(""Not a valid Rule""),
        }
    }
}
#[allow(dead_code)]
pub static RULES_SIZE: u32 = 2;
#[allow(clippy::upper_case_acronyms)] // Again due to generation -> Might solve eventually
#[derive(PartialEq, Eq, Hash, FromPrimitive, Clone, Copy, Debug, Ord, PartialOrd)]

pub enum Rules {
    Grammar,
    Unique_line_matcher,
}
".
Definition ex11_rules_rs : list N := (ex11_rules_rs_1)%list.
