-Q theories Verif
theories/HashmapModel.v
theories/HashmapSpec.v
theories/HashmapProof.v
theories/HashmapProps.v
theories/IteratorModel.v
theories/IteratorSpec.v
theories/IteratorProof.v
theories/IteratorProof2.v
theories/IteratorProof3.v
theories/IteratorProps.v
theories/PrintfModel.v
theories/PrintfSpec.v
theories/PrintfProof.v
theories/PrintfProps.v
theories/TagStringModel.v
theories/TagStringSpec.v
theories/TagStringProof.v
theories/TagStringProps.v
theories/EscapeModel.v
theories/EscapeSpec.v
theories/EscapeProof.v
theories/EscapeProps.v
theories/Base.v
theories/EntryModel.v
theories/EntrySpec.v
theories/EntryProof.v
theories/EntryProps.v
theories/QuerySpec.v
theories/QueryProof.v
theories/QueryProps.v
theories/BaseProof.v
theories/ValueModel.v
theories/QueryModel.v
theories/KindProof.v
theories/KindProps.v
theories/ValueSpec.v
theories/ValueProof.v
theories/ValueProof2.v
theories/ValueProps.v
theories/ScalarProof.v
theories/ScalarProps.v
theories/TagMapModel.v
theories/TagMapSpec.v
theories/TagMapProof.v
theories/TagMapProps.v
theories/PStorModel.v
theories/PStorSpec.v
theories/PStorProof.v
theories/PStorProps.v
theories/DeepModel.v
theories/DeepSpec.v
theories/DeepProof.v
theories/DeepProof2.v
theories/DeepProof3.v
theories/DeepProof4.v
theories/DeepProof5.v
theories/DeepProof6.v
theories/DeepProof7.v
theories/DeepProof8.v
theories/DeepProps.v
theories/CdeclModel.v
theories/CdeclSpec.v
theories/CdeclProof.v
theories/CdeclProof2.v
theories/CdeclProof3.v
theories/CdeclProps.v
theories/HandlerModel.v
theories/HandlerSpec.v
theories/HandlerProof.v
theories/HandlerProof2.v
theories/HandlerProof3.v
theories/HandlerProps.v
theories/CountSpec.v
theories/CountProof.v
theories/CountProps.v
theories/CopySpec.v
theories/CopyProof.v
theories/CopyProof2.v
theories/CopyProof3.v
theories/CopyProof4.v
theories/CopyProps.v
theories/CopyTreeSpec.v
theories/CopyTreeProof.v
theories/CopyTreeProof2.v
theories/CopyTreeProps.v
theories/EqualSpec.v
theories/EqualProof.v
theories/EqualProps.v
theories/MoveSpec.v
theories/MoveProof.v
theories/MoveProof2.v
theories/MoveProof3.v
theories/MoveProof4.v
theories/MoveProof5.v
theories/MoveProps.v
theories/TextModel.v
theories/TextSpec.v
theories/TextProof.v
theories/TextProof2.v
theories/TextProof3.v
theories/TextProof4.v
theories/TextProof5.v
theories/TextProof6.v
theories/TextProof7.v
theories/TextProof8.v
theories/TextProps.v
theories/WrapModel.v
theories/WrapSpec.v
theories/WrapProof.v
theories/WrapProof2.v
theories/WrapProps.v
theories/VprintfModel.v
theories/VprintfSpec.v
theories/VprintfProof.v
theories/VprintfProof2.v
theories/VprintfProps.v
theories/CallModel.v
theories/CallSpec.v
theories/CallProof.v
theories/CallProof2.v
theories/CallProof3.v
theories/CallProof4.v
theories/CallProps.v
theories/CallDeepSpec.v
theories/CallDeepProof.v
theories/CallDeepProof2.v
theories/CallDeepProps.v
theories/CompleteSpec.v
theories/CompleteProof.v
theories/CompleteProof2.v
theories/CompleteProof3.v
theories/CompleteProof4.v
theories/CompleteProps.v
theories/CopyTreeProof3.v
theories/CopyTreeProps2.v
theories/TwinSpec.v
theories/TwinProof.v
theories/TwinProof2.v
theories/TwinProof3.v
theories/TwinProps.v
theories/TwinFreeProof.v
theories/TwinFreeProps.v
theories/TwinAgainProof.v
theories/TwinAgainProps.v
theories/RoundProof.v
theories/RoundProps.v
theories/CtxModel.v
theories/CtxSpec.v
theories/CtxProof.v
theories/CtxProof2.v
theories/CtxProps.v
theories/OwnModel.v
theories/OwnSpec.v
theories/OwnProof.v
theories/OwnProof2.v
theories/OwnProof3.v
theories/OwnProof4.v
theories/OwnProps.v
theories/OverrideModel.v
theories/OverrideSpec.v
theories/OverrideProof.v
theories/OverrideProps.v
theories/MetadbModel.v
theories/MetadbSpec.v
theories/MetadbProof.v
theories/MetadbProof2.v
theories/MetadbProof3.v
theories/MetadbProof4.v
theories/MetadbProof5.v
theories/MetadbProof6.v
theories/MetadbProps.v
theories/DwarfyModel.v
theories/DwarfySpec.v
theories/DwarfyProof.v
theories/DwarfyProps.v
theories/TplModel.v
theories/TplSpec.v
theories/TplProof.v
theories/TplProof2.v
theories/TplProof3.v
theories/TplProof4.v
theories/TplProps.v
theories/AbiModel.v
theories/AbiSpec.v
theories/AbiProof.v
theories/AbiProps.v
theories/BuildModel.v
theories/BuildSpec.v
theories/BuildProof1.v
theories/BuildProof2.v
theories/BuildProof3.v
theories/BuildProof4.v
theories/BuildProof5.v
theories/BuildProof6.v
theories/BuildProps.v
theories/NamesModel.v
theories/NamesSpec.v
theories/NamesProof.v
theories/NamesProps.v
theories/RunModel.v
theories/RunSpec.v
theories/RunProof.v
theories/RunProps.v
theories/ParentModel.v
theories/ParentSpec.v
theories/ParentProof.v
theories/ParentProps.v
