-Q theories Verif
theories/Base.v
theories/BaseLemmas.v
theories/Path_Model.v
theories/Path_Spec.v
theories/Path_Lemmas.v
theories/Path_Props.v
theories/Util_Model.v
theories/Num_Model.v
theories/Token_Model.v
theories/Token_Spec.v
theories/Token_Lemmas.v
theories/Token_Lemmas2.v
theories/Token_Props.v
theories/PathParser_Model.v
theories/PathParser_Spec.v
theories/PathParser_Lemmas.v
theories/PathParser_Lemmas2.v
theories/PathParser_Lemmas3.v
theories/PathParser_Props.v
theories/Doc_Model.v
theories/Doc_Spec.v
theories/Doc_Lemmas.v
theories/Doc_Lemmas2.v
theories/Doc_Lemmas3.v
theories/Doc_Props.v
theories/Edit_Model.v
theories/Edit_Spec.v
theories/Edit_Lemmas.v
theories/Edit_Lemmas2.v
theories/Edit_Lemmas3.v
theories/Edit_Lemmas4.v
theories/Edit_Lemmas5.v
theories/Edit_Lemmas6.v
theories/Edit_Lemmas7.v
theories/Edit_Lemmas8.v
theories/Edit_Lemmas9.v
theories/Edit_Props.v
theories/Value_Model.v
theories/Value_Spec.v
theories/Value_Lemmas.v
theories/Value_Lemmas2.v
theories/Value_Lemmas3.v
theories/Value_Props.v
theories/Duration_Model.v
theories/Duration_Spec.v
theories/Duration_Lemmas.v
theories/Config_Model.v
theories/Config_Spec.v
theories/Config_Lemmas.v
theories/Config_Lemmas2.v
theories/Config_Props.v
theories/Concat_Model.v
theories/Concat_Spec.v
theories/Concat_Lemmas.v
theories/Concat_Props.v
theories/FList_Model.v
theories/FList_Spec.v
theories/FList_Lemmas.v
theories/FList_Props.v
theories/Origin_Model.v
theories/Origin_Spec.v
theories/Origin_Lemmas.v
theories/Origin_Props.v
theories/ProgOpts_Model.v
theories/ProgOpts_Spec.v
theories/ProgOpts_Lemmas.v
theories/ProgOpts_Props.v
theories/ConfigParser_Model.v
theories/ConfigParser_Spec.v
theories/ConfigParser_Lemmas.v
theories/ConfigParser_Lemmas2.v
theories/ConfigParser_Props.v
theories/Resolve_Model.v
theories/Resolve_Spec.v
theories/Resolve_Lemmas.v
theories/Resolve_Lemmas2.v
theories/Resolve_Lemmas3.v
theories/Resolve_Props.v
theories/Resolve_Lemmas4.v
theories/Resolve_Lemmas5.v
theories/Resolve_Lemmas6.v
theories/Resolve_Lemmas7.v
theories/Resolve_Lemmas8.v
theories/Resolve_Lemmas9.v
theories/Resolve_Props2.v
theories/Resolve_Lemmas10.v
theories/Resolve_Props3.v
theories/Json_Lemmas.v
theories/Json_Lemmas2.v
theories/Json_Lemmas3.v
theories/Json_Props.v
theories/Render_Model.v
theories/Render_Spec.v
theories/Render_Lemmas.v
theories/Render_Props.v
theories/Render_Lemmas2.v
theories/Render_Lemmas3.v
theories/Render_Lemmas4.v
theories/Render_Lemmas5.v
theories/Render_Lemmas6.v
theories/Render_Props2.v
theories/Include_Model.v
theories/Include_Spec.v
theories/Include_Lemmas.v
theories/Include_Lemmas2.v
theories/Include_Lemmas3.v
theories/Include_Props.v
theories/Include_Props2.v
theories/Share_Model.v
theories/Share_Spec.v
theories/Share_Lemmas.v
theories/Share_Lemmas2.v
theories/Share_Lemmas3.v
theories/Share_Lemmas4.v
theories/Share_Props.v
theories/Comments_Model.v
theories/Comments_Spec.v
theories/Comments_Lemmas.v
theories/Comments_Lemmas2.v
theories/Comments_Lemmas3.v
theories/Comments_Lemmas4.v
theories/Comments_Props.v
theories/Resolve_Lemmas11.v
theories/Resolve_Props4.v
theories/Lines_Model.v
theories/Lines_Spec.v
theories/Lines_Lemmas.v
theories/Lines_Props.v
theories/Factory_Model.v
theories/Factory_Spec.v
theories/Factory_Lemmas.v
theories/Factory_Lemmas2.v
theories/Factory_Lemmas3.v
theories/Factory_Lemmas4.v
theories/Factory_Lemmas5.v
theories/Factory_Props.v
theories/JsonEdit_Spec.v
theories/JsonEdit_Lemmas.v
theories/JsonEdit_Lemmas2.v
theories/JsonEdit_Lemmas3.v
theories/JsonEdit_Lemmas4.v
theories/JsonEdit_Lemmas5.v
theories/JsonEdit_Lemmas6.v
theories/JsonEdit_Lemmas7.v
theories/JsonEdit_Lemmas8.v
theories/JsonEdit_Props.v
theories/Resolve_Lemmas12.v
theories/Resolve_Lemmas13.v
theories/Resolve_Props5.v
theories/Include_Lemmas4.v
theories/Include_Props3.v
theories/Options_Model.v
theories/Options_Spec.v
theories/Options_Lemmas.v
theories/Options_Props.v
theories/ConfEdit_Spec.v
theories/ConfEdit_Lemmas.v
theories/ConfEdit_Lemmas2.v
theories/ConfEdit_Lemmas3.v
theories/ConfEdit_Lemmas4.v
theories/ConfEdit_Lemmas5.v
theories/ConfEdit_Lemmas6.v
theories/ConfEdit_Lemmas7.v
theories/ConfEdit_Props.v
theories/ConfText_Lemmas.v
theories/ConfText_Lemmas2.v
theories/ConfText_Lemmas3.v
theories/ConfText_Lemmas4.v
theories/ConfText_Spec.v
theories/ConfText_Lemmas5.v
theories/ConfText_Lemmas6.v
theories/ConfText_Lemmas7.v
theories/ConfText_Lemmas8.v
theories/ConfText_Lemmas9.v
theories/ConfText_Lemmas10.v
theories/ConfText_Lemmas11.v
theories/ConfText_Lemmas12.v
theories/ConfText_Lemmas13.v
theories/ConfText_Props.v
theories/Escape_Spec.v
theories/Escape_Lemmas.v
theories/Escape_Props.v
theories/RenderConf_Spec.v
theories/RenderConf_Lemmas.v
theories/RenderConf_Lemmas2.v
theories/RenderConf_Lemmas3.v
theories/RenderConf_Props.v
theories/RenderRef_Spec.v
theories/RenderRef_Lemmas.v
theories/RenderRef_Lemmas2.v
theories/RenderRef_Lemmas3.v
theories/RenderRef_Lemmas4.v
theories/RenderRef_Lemmas5.v
theories/RenderRef_Lemmas6.v
theories/RenderRef_Props.v
theories/RenderRef_Lemmas7.v
theories/RenderRef_Props2.v
theories/Round_Spec.v
theories/Round_Lemmas.v
theories/Round_Lemmas2.v
theories/Round_Lemmas3.v
theories/Round_Lemmas4.v
theories/Round_Lemmas5.v
theories/Round_Lemmas6.v
theories/Round_Lemmas7.v
theories/Round_Props.v
theories/Round_Lemmas8.v
theories/Round_Lemmas9.v
theories/Round_Props2.v
theories/Round_Lemmas10.v
theories/Round_Lemmas11.v
theories/Round_Props3.v
theories/Rfc_Spec.v
theories/Rfc_Lemmas.v
theories/Rfc_Lemmas2.v
theories/Rfc_Lemmas3.v
theories/Rfc_Lemmas4.v
theories/Rfc_Props.v
theories/Rfc_Lemmas5.v
theories/Rfc_Lemmas6.v
theories/Rfc_Props2.v
theories/Rfc_Spec2.v
theories/Rfc_Lemmas7.v
theories/Rfc_Props3.v
theories/Layers_Model.v
theories/Rfc_Spec3.v
theories/Rfc_Lemmas8.v
theories/Rfc_Props4.v
theories/Hocon_Spec.v
theories/Hocon_Lemmas.v
theories/Phrase_Lemmas.v
theories/Key_Lemmas.v
theories/Lists_Lemmas.v
theories/Hocon_Lemmas2.v
theories/Hocon_Lemmas3.v
theories/Hocon_Lemmas4.v
theories/Hocon_Lemmas5.v
theories/Hocon_Props.v
theories/Hocon_Props2.v
theories/DurText_Spec.v
theories/DurText_Lemmas.v
theories/DurText_Props.v
theories/Forms_Spec.v
theories/Forms_Lemmas.v
theories/Forms_Props.v
